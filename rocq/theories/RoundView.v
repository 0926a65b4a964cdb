(** The views of blocks that are read back: closed, and on one line where an
    item needs it. *)
From Coq Require Import String Lia.
From Verif Require Export RoundUnwrap RoundItem RoundSettle SpecRound.
Import ListNotations.
Open Scope list_scope.
Local Notation len := (@List.length _).

Section View.
Variables (upper : char -> str) (udigit : char -> bool) (config : md_config).
Lemma tokens_last : forall t c, is_whitespace c = false -> exists l w, tokens (t ++ [c]) = l ++ [Some w].
Proof.
  intros t c H. induction t as [|x t (l & w & E)].
  - exists [], [c]. cbn. unfold token_char. now rewrite H.
  - cbn [app]. rewrite token_cons, E. unfold token_char. destruct (is_whitespace x).
    + destruct l as [|[y|] l]; [exists [None], w|exists (None :: Some y :: l), w|exists (None :: l), w]; reflexivity.
    + destruct l as [|[y|] l]; [exists [], (x :: w)|exists (Some (x :: y) :: l), w|exists (Some [x] :: None :: l), w]; reflexivity.
Qed.
Lemma flowing_last : forall l w, exists ps, flowing udigit (l ++ [Some w]) = ps ++ [Word w].
Proof.
  intros l w. induction l as [|[x|] l (ps & E)]; [exists []; reflexivity|..]; cbn [app flowing]; rewrite E; eexists (_ :: ps); reflexivity.
Qed.
Lemma rich_last : forall l i, rich (l ++ [i]) -> rich [i].
Proof.
  intros l i. induction l as [|x l IH]; intros R; [exact R|]. apply IH. cbn [app] in R. inversion R; subst; assumption.
Qed.
Lemma closed_inlines : forall l, rich l -> tight (source l) -> exists ps w, inlines_view udigit true l = ps ++ [Word w].
Proof.
  intros l R [_ (s & c & E & Hc)]. destruct (exists_last (l := l)) as (l' & i & ->); [intros ->; destruct s; discriminate|].
  apply rich_last in R. unfold inlines_view. rewrite flat_map_app. cbn [flat_map]. rewrite app_nil_r. enough (exists ps w, inline_view udigit true i = ps ++ [Word w]) as (ps & w & ->) by (eexists (_ ++ ps), w; apply app_assoc).
  inversion R as [|t ? P _ _ _ _| | | | | | | | | | | |]; subst; cbn [inline_view].
  - unfold source in E. rewrite flat_map_app in E. cbn [flat_map source_of] in E. rewrite app_nil_r in E. destruct P as (N & _).
    destruct (exists_last N) as (t' & d & ->). rewrite app_assoc in E. apply app_inj_tail in E as [_ ->]. destruct (tokens_last t' c Hc) as (k & w & ->).
    destruct (flowing_last k w) as (ps & ->). now exists ps, w.
  - match goal with H : opens_paragraph [] |- _ => destruct H end.
  - eexists [_; _], _. reflexivity.
  - eexists (_ :: _), _. reflexivity.
  - eexists (_ :: _), _. reflexivity.
  - eexists (_ :: _), _. reflexivity.
  - eexists (_ :: _), _. reflexivity.
  - match goal with |- exists ps w, ?a ++ ?b ++ ?c ++ ?d ++ ?e = _ => exists (a ++ b ++ c ++ d) end. eexists. rewrite <- !app_assoc. reflexivity.
  - eexists [_; _; _; _; _], _. reflexivity.
  - eexists [], _. reflexivity.
  - eexists [], _. reflexivity.
  - match goal with |- context [if ?b then _ else _] => destruct b end.
    + eexists (_ :: _), _. reflexivity.
    + match goal with |- exists ps w, ?a ++ ?b ++ ?c ++ ?d ++ ?e = _ => exists (a ++ b ++ c ++ d) end. eexists. rewrite <- !app_assoc. reflexivity.
  - match goal with |- context [if ?b then _ else _] => destruct b end.
    + eexists (_ :: _), _. reflexivity.
    + match goal with |- exists ps w, ?a ++ ?b ++ ?c ++ ?d ++ ?e = _ => exists (a ++ b ++ c ++ d) end. eexists. rewrite <- !app_assoc. reflexivity.
Qed.
(** words without line breaks *)
Lemma words_fixed : forall s i, In (Word s) (inline_view udigit true i) -> In (Word s) (inline_view udigit false i).
Proof.
  intros s i. assert (HL : forall l, Forall (fun i => In (Word s) (inline_view udigit true i) -> In (Word s) (inline_view udigit false i)) l ->
    In (Word s) (flat_map (inline_view udigit true) l) -> In (Word s) (flat_map (inline_view udigit false) l)).
  { intros l F I. apply in_flat_map in I as (x & X & I). apply in_flat_map. exists x. split; [exact X|]. rewrite Forall_forall in F. now apply F. }
  induction i as [t| |c|h|d t c IH|n c IH1 IH2|im|c IH|c IH|c IH|u|f|] using inline_ind'; cbn [inline_view]; try (intros I; exact I).
  - induction (tokens t) as [|[w|] l IH]; cbn [flowing fixed map]; [intros []| |].
    + intros [E|I]; [now left|right; now apply IH].
    + intros [E|I]; [|right; now apply IH]. left. destruct l as [|[w|] l]; try discriminate E. destruct (unsafe udigit w); [exact E|discriminate].
  - rewrite !in_app_iff. intros [I|[I|I]]; auto.
  - match goal with |- context [if ?b then _ else _] => destruct b end; rewrite !in_app_iff; intuition.
  - rewrite !in_app_iff. intuition.
  - rewrite !in_app_iff. intuition.
  - rewrite !in_app_iff. intuition.
Qed.
Definition one_line_word (p : piece) : Prop := match p with Word s => nl_free s | Alerted _ => False | _ => True end.
Lemma at_one_line : forall i l, Forall one_line_word l -> Forall one_line_piece (at_ i l).
Proof. intros i l F. unfold at_. apply Forall_map. eapply Forall_impl; [|exact F]. now intros []. Qed.
Lemma no_break_unwrap : forall l l', unwrap_inlines l' = unwrap_inlines l -> ~ In ILineBreak (flat_map inline_preorder l) -> ~ In ILineBreak (flat_map inline_preorder l').
Proof.
  intros l l' E N I. apply N. apply (in_map unwrap_inline) in I. cbn [unwrap_inline] in I. rewrite <- inlines_unwrap, E, inlines_unwrap in I.
  apply in_map_iff in I as (i & E2 & I). destruct i as [| | | |[]|[]| | | | | | |]; try discriminate; exact I.
Qed.
Lemma unwrapped_free : forall l, rich l -> ~ In ILineBreak (flat_map inline_preorder l) -> ~ In c_nl (source (unwrap_inlines l)).
Proof.
  intros l R N. apply rich_no_nl; [apply (rewrap_rich udigit l R); now apply rewrap_flat|]. split.
  - apply (no_break_unwrap l); [|exact N]. apply (rewrap_unwrap udigit). now apply rewrap_flat.
  - intros t I J. rewrite inlines_unwrap in I. apply in_map_iff in I as (i & E & _).
    destruct i as [s| | | |[]|[]| | | | | | |]; try discriminate E. injection E as <-. unfold unwrap_text in J. apply in_map_iff in J as (c & E & _). destruct (N.eqb_spec c c_nl); [discriminate|contradiction].
Qed.
Lemma view_pieces : forall wrap i, Forall (fun p => match p with Quoted _ | Alerted _ => False | _ => True end) (inline_view udigit wrap i).
Proof.
  intros wrap. assert (HL : forall l, Forall (fun i => Forall (fun p => match p with Quoted _ | Alerted _ => False | _ => True end) (inline_view udigit wrap i)) l ->
    Forall (fun p => match p with Quoted _ | Alerted _ => False | _ => True end) (flat_map (inline_view udigit wrap) l)).
  { intros l F. apply Forall_flat_map. exact F. }
  induction i as [t| |c|h|d t c IH|n c IH1 IH2|im|c IH|c IH|c IH|u|f|] using inline_ind'; cbn [inline_view]; try (destruct im); try (match goal with x : option str |- _ => destruct x end);
    try (match goal with |- context [if list_eqb ?a ?b ?c then _ else _] => destruct (list_eqb a b c) end);
    repeat first [apply Forall_nil | apply Forall_cons; [exact I|] | apply Forall_app; split | apply HL; assumption].
  destruct wrap; [|unfold fixed; apply Forall_map; apply Forall_forall; now intros [] _]. induction (tokens t) as [|[w|] l IH]; cbn [flowing]; constructor; try exact I; try exact IH.
  destruct l as [|[w|] l]; try exact I. destruct (unsafe udigit w); exact I.
Qed.
Lemma words_free : forall wrap l, rich l -> ~ In ILineBreak (flat_map inline_preorder l) -> Forall one_line_word (inlines_view udigit wrap l).
Proof.
  intros wrap l R N. pose proof (unwrapped_free l R N) as F. rewrite <- (one_line_source udigit l R) in F.
  apply Forall_forall. intros p I. destruct p as [s| | |q|q]; try exact Logic.I.
  - cbn. intro J. apply F. apply in_flat_map. exists (Word s). split; [|exact J]. destruct wrap; [|exact I]. unfold inlines_view in *. apply in_flat_map in I as (i & X & I). apply in_flat_map. exists i. split; [exact X|]. now apply words_fixed.
  - unfold inlines_view in I. apply in_flat_map in I as (i & X & I). pose proof (view_pieces wrap i) as V. rewrite Forall_forall in V. exact (V _ I).
Qed.

(** ** Blocks *)
Lemma fold_Forall : forall A (P : A -> Prop) l, fold_right (fun b Q => P b /\ Q) True l <-> Forall P l.
Proof. intros A P l. induction l as [|x l IH]; cbn; [split; auto|]. rewrite IH. split; [intros []; now constructor|now inversion 1]. Qed.
Definition plain_item (q : place) (it : list_item) : Prop :=
  first_block config (li_task it) (li_blocks it) /\ orderly config q (li_blocks it) /\ Forall (plain_block udigit config q) (li_blocks it).
Definition item_place (p : place) (kind : list_kind) (count : nat) : place := Item (margin p + content_indent config kind count).
Lemma plain_list : forall p kind items, plain_block udigit config p (BList (MkList kind items)) <->
  md_empty_line_before_list config = true /\ margin p + md_spaces_before_list_item config <= 3 /\ items <> [] /\ even_markers kind (len items) /\ numbers_fit kind (len items) /\
  Forall (plain_item (item_place p kind (len items))) items.
Proof.
  intros p kind items. cbn [plain_block]. rewrite fold_Forall. unfold item_place.
  assert (E : Forall (fun it => first_block config (li_task it) (li_blocks it) /\ orderly config (Item (margin p + content_indent config kind (len items))) (li_blocks it) /\
     fold_right (fun b P => plain_block udigit config (Item (margin p + content_indent config kind (len items))) b /\ P) True (li_blocks it)) items <->
     Forall (plain_item (Item (margin p + content_indent config kind (len items)))) items).
  { split; intros F; (eapply Forall_impl; [|exact F]); intros it; unfold plain_item; rewrite fold_Forall; auto. }
  rewrite E. reflexivity.
Qed.
Lemma plain_quote : forall p bs, plain_block udigit config p (BBlockQuote bs) <-> bs <> [] /\ orderly config Quote bs /\ Forall (plain_block udigit config Quote) bs.
Proof. intros p bs. cbn [plain_block]. now rewrite fold_Forall. Qed.
Lemma plain_alert : forall p t bs, plain_block udigit config p (BGitHubAlert (GitHubAlert t bs)) <->
  alert_type_ok t /\ orderly config Alert bs /\ Forall (fun b => compact b /\ plain_block udigit config Alert b) bs.
Proof. intros p t bs. cbn [plain_block]. now rewrite fold_Forall. Qed.
Local Notation view := (block_view upper udigit config).
Lemma closed_words : forall i l, l <> [] -> Forall word_piece l -> closed (at_ i l).
Proof.
  intros i l N F. destruct (exists_last N) as (l' & x & ->). apply Forall_app in F as [_ F]. inversion F as [|? ? F1 _]; subst. destruct x; try contradiction. apply closed_at.
Qed.
Lemma item_closed : forall i kind l k, l <> [] -> Forall (fun x => snd x = [] \/ closed (snd x)) l -> closed (item_pieces config i k kind l).
Proof.
  intros i kind l. induction l as [|[t ps] l IH]; intros k N F; [congruence|]. inversion F as [|? ? F1 F2]; subst. cbn [snd] in F1. cbn [item_pieces]. apply closed_app.
  destruct l as [|y l]; [|apply closed_app, closed_app; apply IH; [discriminate|exact F2]]. cbn [item_pieces]. rewrite app_nil_r. destruct F1 as [->|F1]; [|now apply closed_app].
  rewrite app_nil_r. apply closed_words; [discriminate|]. apply Forall_app. split; [repeat constructor|]. destruct t as [[]|]; repeat constructor.
Qed.
Lemma plain_closed : forall b p, plain_block udigit config p b -> forall i, closed (view i b) /\ exists q qs, view i b = (i, q) :: qs.
Proof.
  assert (HC : forall ps w i l, l = ps ++ [Word w] -> closed (at_ i l) /\ exists q qs, at_ i l = (i, q) :: qs).
  { intros ps w i l ->. split; [apply closed_at|]. destruct ps; eexists _, _; reflexivity. }
  induction b as [c|h| |bs IH|k items IH|c|s|d|t|f bs IH|g bs IH|] using block_ind'; intros p Hp i; try (destruct Hp; fail).
  - destruct Hp as (R & _ & _ & T & _). destruct (closed_inlines c R T) as (ps & w & E). cbn [block_view]. eapply HC, E.
  - destruct h as [[n|l] c]; cbn [block_view heading_view].
    + split; [|eexists _, _; reflexivity]. apply closed_words; [discriminate|]. apply Forall_app. split; [repeat constructor|]. apply words_only_list.
    + eapply (HC (inlines_view udigit true c ++ [Newline])). rewrite <- app_assoc. reflexivity.
  - cbn [block_view]. split; [apply closed_word|eexists _, _; reflexivity].
  - cbn [block_view]. split; [apply closed_quote|eexists _, _; reflexivity].
  - apply plain_list in Hp as (_ & _ & N & _ & _ & F). cbn [block_view]. split.
    + apply item_closed; [intro E; apply map_eq_nil in E; contradiction|]. apply Forall_map. rewrite Forall_forall in *. intros it I. cbn [snd]. destruct (li_blocks it) as [|b bs] eqn:E; [now left|right].
      rewrite <- E. apply closed_blocks; [rewrite E; discriminate|]. apply Forall_map. apply Forall_forall. intros x X. cbn [snd]. destruct (F it I) as (_ & _ & G). rewrite Forall_forall in G. specialize (IH it I). rewrite Forall_forall in IH. eapply IH; eauto.
    + destruct items as [|it items]; [congruence|]. eexists _, _. reflexivity.
  - cbn [block_view]. destruct c as [[|info] s]; cbn [code_view]; (split; [|eexists _, _; reflexivity]); [apply closed_word|apply (closed_at i [_; _])].
  - cbn [block_view]. split; [apply closed_word|eexists _, _; reflexivity].
  - destruct d as [l d t]. cbn [block_view]. unfold definition_view. eapply (HC ([Word (lit "[")] ++ inlines_view udigit true l ++ [Word (lit "]: ")])). rewrite <- !app_assoc. reflexivity.
  - destruct Hp as (_ & N & _). cbn [block_view]. destruct (t_rows t) as [|row rows]; [congruence|]. split; [apply closed_word|eexists _, _; reflexivity].
  - cbn [block_view]. split; [|eexists _, _; reflexivity]. destruct bs; [apply closed_word|apply (closed_cons _ [_]), closed_alert].
Qed.
Lemma blocks_one_line : forall i l, Forall (fun x => Forall one_line_piece (snd x)) l -> Forall one_line_piece (blocks_pieces config i l).
Proof.
  intros i [|[b ps] l] F; [constructor|]. inversion F as [|? ? F1 F2]; subst. cbn [blocks_pieces snd] in *. apply Forall_app. split; [exact F1|].
  induction F2 as [|[b2 ps2] l F3 F4 IH]; [constructor|]. cbn [separated snd] in *. apply Forall_app. split; [apply at_one_line; destruct b2; cbn [separator]; try destruct (md_empty_line_before_list config); repeat constructor|].
  apply Forall_app. split; [exact F3|]. apply IH. now constructor.
Qed.
Lemma items_one_line : forall i kind l k, Forall (fun x => Forall one_line_piece (snd x)) l -> Forall one_line_piece (item_pieces config i k kind l).
Proof.
  intros i kind l. induction l as [|[t ps] l IH]; intros k F; [constructor|]. inversion F as [|? ? F1 F2]; subst. cbn [item_pieces snd] in *.
  apply Forall_app. split; [destruct (k =? 0); repeat constructor|]. apply Forall_app. split.
  - apply at_one_line. apply Forall_app. split.
    + repeat constructor; cbn; try apply marker_line; intro J; try apply repeat_spec in J; cbn in J; intuition discriminate.
    + destruct t as [[]|]; repeat constructor; cbn; intro J; cbn in J; intuition discriminate.
  - apply Forall_app. split; [exact F1|now apply IH].
Qed.
Lemma plain_one_line : forall b n, plain_block udigit config (Item n) b -> forall i, Forall one_line_piece (view i b).
Proof.
  induction b as [c|h| |bs IH|k items IH|c|s|d|t|f bs IH|g bs IH|] using block_ind'; intros n Hp i; try (destruct Hp; fail).
  - destruct Hp as (R & _ & _ & _ & _ & N). cbn [block_view]. apply at_one_line, words_free; [exact R|]. apply N. now exists n.
  - destruct h as [[m|l] c]; cbn [block_view heading_view plain_block] in *.
    + destruct Hp as (_ & _ & R & _ & N). apply at_one_line. apply Forall_app. split; [|now apply words_free].
      repeat constructor; cbn; intro J; try apply repeat_spec in J; cbn in J; intuition discriminate.
    + destruct Hp as ((R & _ & _ & _ & _ & N) & _). apply at_one_line. apply Forall_app. split; [apply words_free; [exact R|apply N; now exists n]|].
      destruct l; repeat constructor; cbn; intro J; cbn in J; intuition discriminate.
  - exfalso. apply Hp. now exists n.
  - repeat constructor.
  - apply plain_list in Hp as (_ & _ & _ & _ & _ & F). cbn [block_view]. apply items_one_line. apply Forall_map. rewrite Forall_forall in *. intros it I. cbn [snd]. apply blocks_one_line. apply Forall_map.
    apply Forall_forall. intros x X. cbn [snd]. destruct (F it I) as (_ & _ & G). rewrite Forall_forall in G. specialize (IH it I). rewrite Forall_forall in IH. eapply IH; [exact X|now apply G].
  - exfalso. destruct c as [[|info] s]; cbn [plain_block] in Hp; [destruct Hp as [Hp _]; discriminate Hp|]. destruct Hp as [Hp _]. apply Hp. now exists n.
  - destruct Hp as [[[Hp|Hp] _]|[Hp _]]; try discriminate Hp. repeat constructor. exact Hp.
  - destruct d as [l d t]. destruct Hp as ((R & _ & _ & _ & _ & N & _) & Hd & _ & [Ho _] & Ht). cbn [block_view]. unfold definition_view. cbn [ld_label ld_destination ld_title]. apply at_one_line. apply Forall_app. split; [repeat constructor; cbn; intro J; cbn in J; intuition discriminate|].
    apply Forall_app. split; [apply words_free; [exact R|apply N; now exists n]|]. constructor; [cbn; intro J; cbn in J; intuition discriminate|]. constructor; [|constructor]. cbn. intro J. apply in_app_or in J as [J|J]; [contradiction|].
    destruct t as [t|]; [|destruct J]. destruct Ht as [[Ht _] _]. cbn in J. destruct J as [J|[J|J]]; [discriminate|discriminate|]. apply in_app_or in J as [J|J]; [contradiction|cbn in J; intuition discriminate].
  - exfalso. destruct Hp as [Hp _]. apply Hp. now exists n.
  - apply plain_alert in Hp as (Ht & _). cbn [block_view]. constructor.
    + unfold one_line_piece. cbn [snd]. pose proof (label_line upper g Ht) as F. rewrite Forall_forall in F. intro I. cbn in I. destruct I as [I|[I|[I|[I|I]]]]; try discriminate.
      apply in_app_or in I as [I|I]; [now apply F in I as [I _]|cbn in I; intuition discriminate].
    + destruct bs; repeat constructor.
Qed.
End View.
