(** Consequences for the Markdown printer properties. *)
From Coq Require Import String Lia.
From Verif Require Export SpecAst MdView MdPanic.
Import ListNotations.
Open Scope list_scope.

(** ** Strings with the same words *)
Definition tk (s : str) (l : list (option str)) : list (option str) := fold_right token_char l s.
Definition same_words (a b : str) : Prop := forall l, tk a l = tk b l.
Lemma tk_app a b l : tk (a ++ b) l = tk a (tk b l).
Proof. apply fold_right_app. Qed.
Lemma same_app a a' b b' : same_words a a' -> same_words b b' -> same_words (a ++ b) (a' ++ b').
Proof. intros A B l. rewrite !tk_app, B. apply A. Qed.
Lemma token_sp_idem l : token_char c_sp (token_char c_sp l) = token_char c_sp l.
Proof. unfold token_char. cbn. destruct l as [|[?|] ?]; reflexivity. Qed.
Lemma tk_spaces n l : tk (rep n c_sp) (token_char c_sp l) = token_char c_sp l.
Proof. induction n; [reflexivity|]. cbn [rep repeat tk fold_right]. unfold tk, rep in IHn. rewrite IHn. apply token_sp_idem. Qed.
Lemma rep_snoc n : rep (S n) c_sp = rep n c_sp ++ [c_sp].
Proof. induction n; [reflexivity|]. change (rep (S (S n)) c_sp) with (c_sp :: rep (S n) c_sp). rewrite IHn at 1. reflexivity. Qed.
Lemma tk_break n l : tk (break_to n) l = token_char c_sp l.
Proof.
  unfold break_to. cbn [tk fold_right]. rewrite (token_ws c_nl) by reflexivity.
  destruct n; [reflexivity|]. rewrite rep_snoc. change (fold_right token_char l) with (fun s => tk s l). cbv beta.
  rewrite tk_app. change (tk [c_sp] l) with (token_char c_sp l). rewrite tk_spaces. apply token_sp_idem.
Qed.

Inductive lay : doc -> Prop :=
| lay_nil : lay DNil
| lay_text : forall s, lay (DText s)
| lay_line : lay DHardline
| lay_soft : lay softline
| lay_panic : lay DPanic
| lay_app : forall a b, lay a -> lay b -> lay (DAppend a b)
| lay_group : forall d, lay d -> lay (DGroup d)
| lay_nest : forall n d, lay d -> lay (DNest n d).
Lemma lay_append a b : lay a -> lay b -> lay (append a b).
Proof. intros A B. destruct (append_spec a b) as [[_ ->]|[[_ ->]|(_ & _ & ->)]]; auto. now constructor. Qed.

Section Words.
Variable uwidth : str -> nat.
Variable upper : char -> str.
Variable udigit : char -> bool.
Variable big : nat.

Lemma lay_words d : lay d -> forall w i m r pos o p w' i' m' r' pos' o' p',
  best uwidth w i m d r pos = Some (o, p) -> best uwidth w' i' m' d r' pos' = Some (o', p') -> same_words o o'.
Proof.
  induction 1; intros until p'; intros E E'; cbn [best] in E, E'; try discriminate.
  - injection E as <- <-. injection E' as <- <-. intro; reflexivity.
  - injection E as <- <-. injection E' as <- <-. intro; reflexivity.
  - injection E as <- <-. injection E' as <- <-. intro l. change (c_nl :: rep ?n c_sp) with (break_to n). now rewrite !tk_break.
  - assert (S : forall w i m r pos o p, best uwidth w i m softline r pos = Some (o, p) -> forall l, tk o l = token_char c_sp l).
    { clear. intros w i m r pos o p E l. unfold softline, group, line, space in E. cbn [best] in E.
      destruct m; [destruct fitting; try discriminate|]; injection E as <- <-; try reflexivity.
      change (c_nl :: rep ?n c_sp) with (break_to n). apply tk_break. }
    intro l. erewrite !S; [reflexivity|eassumption|eassumption].
  - destruct (best uwidth w i m a _ pos) as [[oa pa]|] eqn:A; [|discriminate].
    destruct (best uwidth w' i' m' a _ pos') as [[oa' pa']|] eqn:A'; [|discriminate].
    destruct (best uwidth w i m b r pa) as [[ob pb]|] eqn:B; [|discriminate].
    destruct (best uwidth w' i' m' b r' pa') as [[ob' pb']|] eqn:B'; [|discriminate].
    injection E as <- <-. injection E' as <- <-. apply same_app; eauto.
  - destruct m; [destruct (fitting uwidth w d r pos); try discriminate|];
    (destruct m'; [destruct (fitting uwidth w' d r' pos'); try discriminate|]); eauto.
  - eauto.
Qed.

Lemma lay_fold l : Forall lay l -> forall acc, lay acc -> lay (fold_left append l acc).
Proof. induction 1; intros acc A; cbn; auto. apply IHForall. now apply lay_append. Qed.
Lemma lay_intersperse l sep : Forall lay l -> lay sep -> lay (intersperse l sep).
Proof.
  intros F S. destruct F as [|x l X F]; [constructor|]. cbn. revert x X. induction F; intros x' X; cbn; auto.
  apply IHF. repeat apply lay_append; auto.
Qed.
Lemma lay_inline wrap x : lay (md_inline udigit wrap x).
Proof.
  assert (S : forall l acc, lay acc -> lay (safe_text_go udigit l acc)).
  { induction l as [|[w|] l IH]; intros acc A; cbn [safe_text_go]; auto; apply IH; apply lay_append; auto.
    - constructor.
    - destruct (find_next_word l) as [w|]; [|constructor]. destruct (is_safe_line_break_before udigit w); constructor. }
  assert (C : forall l, Forall (fun x => lay (md_inline udigit wrap x)) l -> lay (concat_docs (map (md_inline udigit wrap) l))).
  { intros l F. apply lay_fold; [|constructor]. now apply Forall_map. }
  induction x using inline_ind'; cbn [md_inline]; repeat first [apply lay_text | apply lay_nil | apply lay_append | apply C; assumption].
  - destruct wrap; [apply S; constructor|]. apply lay_fold; [|constructor]. apply Forall_map, Forall_forall.
    intros [w|] _; constructor.
  - cbn [link_title]. destruct t; repeat first [apply lay_text | apply lay_nil | apply lay_append].
  - cbn [lr_label lr_text]. destruct (list_eqb inline_eqb l t); repeat first [apply lay_text | apply lay_append | apply C; assumption].
Qed.
Lemma lay_inlines wrap l : lay (md_inlines udigit wrap l).
Proof. apply lay_fold; [|constructor]. apply Forall_map, Forall_forall. intros x _. apply lay_inline. Qed.

Definition no_quotes (bs : list block) : Prop := forall q, ~ In (BBlockQuote q) (flat_map block_preorder bs).
Section Config.
Variable config : md_config.
Variable w : nat.
Lemma lay_blocks_go l : Forall (fun x : block * doc => lay (snd x)) l -> forall acc b, lay acc -> lay (blocks_go config acc b l).
Proof.
  induction 1 as [|[x d] l D F IH]; intros acc b A; cbn [blocks_go]; auto. apply IH. apply lay_append; auto.
  destruct b; auto. cbn in D. destruct x; repeat apply lay_append; try constructor; auto.
  destruct (md_empty_line_before_list config); repeat apply lay_append; try constructor; auto.
Qed.
Lemma same_blocks_go l : forall acc b, blocks_go (with_width config w) acc b l = blocks_go config acc b l.
Proof. induction l as [|[x d] l IH]; intros acc b; cbn [blocks_go]; auto. Qed.
Lemma same_items k n l : forall c, items_go (with_width config w) k c n l = items_go config k c n l.
Proof.
  induction l as [|[t d] l IH]; intro c; [reflexivity|]. cbn [items_go]. destruct k; rewrite IH; reflexivity.
Qed.
Lemma lay_items k n l : Forall (fun x : option task_state * doc => lay (snd x)) l -> forall c,
  Forall lay (items_go config k c n l).
Proof.
  induction 1 as [|[t d] l D F IH]; intro c; [constructor|]. cbn [items_go].
  assert (L : lay (item_doc config k c n t d)).
  { unfold item_doc. cbn in D.
    assert (lay (group (nest n d))).
    { assert (lay (nest n d)) by (destruct d; cbn; try constructor; destruct n; auto; constructor; auto).
      destruct (nest n d); cbn; auto; constructor; auto. }
    repeat apply lay_append; auto; try constructor. destruct t as [[|]|]; repeat constructor. }
  destruct k; [|constructor; auto]. destruct (_ <? _)%N; [constructor; auto|repeat constructor].
Qed.

Lemma no_quotes_cons b l : no_quotes (b :: l) <-> no_quotes [b] /\ no_quotes l.
Proof.
  unfold no_quotes. cbn [flat_map]. split.
  - intro H. split; intros q I; apply (H q); [rewrite app_nil_r in I|]; apply in_or_app; auto.
  - intros [A B] q I. apply in_app_or in I as [I|I]; [apply (A q); now rewrite app_nil_r|now apply (B q)].
Qed.
Lemma no_quotes_Forall l : no_quotes l -> Forall (fun b => no_quotes [b]) l.
Proof. induction l as [|b l IH]; intro H; constructor; apply no_quotes_cons in H as [A B]; auto. Qed.

Definition same_lay (b : block) : Prop := no_quotes [b] ->
  md_block uwidth upper udigit big (with_width config w) b = md_block uwidth upper udigit big config b
  /\ lay (md_block uwidth upper udigit big config b).
Lemma same_lay_blocks l : Forall same_lay l -> no_quotes l ->
  blocks_doc (with_width config w) (map (fun x => (x, md_block uwidth upper udigit big (with_width config w) x)) l)
  = blocks_doc config (map (fun x => (x, md_block uwidth upper udigit big config x)) l)
  /\ lay (blocks_doc config (map (fun x => (x, md_block uwidth upper udigit big config x)) l)).
Proof.
  intros F N. apply no_quotes_Forall in N.
  assert (E : map (fun x => (x, md_block uwidth upper udigit big (with_width config w) x)) l
            = map (fun x => (x, md_block uwidth upper udigit big config x)) l).
  { apply map_ext_in. intros x I. f_equal. rewrite Forall_forall in F, N. apply F; auto. }
  unfold blocks_doc. rewrite E, same_blocks_go. split; [reflexivity|]. apply lay_blocks_go; [|constructor].
  apply Forall_map. rewrite Forall_forall in *. intros x I. apply F; auto.
Qed.
Lemma same_block b : same_lay b.
Proof.
  induction b using block_ind'; intro N; cbn [md_block].
  - split; [reflexivity|apply lay_inlines].
  - split; [reflexivity|]. unfold md_heading.
    destruct (h_kind h) as [n|[|]]; repeat first [apply lay_append | apply lay_inlines | constructor].
  - split; [reflexivity|constructor].
  - exfalso. apply (N bs). cbn. auto.
  - cbn [l_kind l_items].
    assert (I : Forall (fun it => no_quotes (li_blocks it)) items).
    { apply Forall_forall. intros it I q Q. apply (N q). cbn [flat_map]. rewrite app_nil_r. cbn. right.
      apply in_flat_map. exists it. split; auto. }
    assert (E : map (fun it => (li_task it, blocks_doc (with_width config w) (map (fun x => (x, md_block uwidth upper udigit big (with_width config w) x)) (li_blocks it)))) items
              = map (fun it => (li_task it, blocks_doc config (map (fun x => (x, md_block uwidth upper udigit big config x)) (li_blocks it)))) items).
    { apply map_ext_in. intros it Q. f_equal. rewrite Forall_forall in H, I. apply same_lay_blocks; auto. }
    rewrite E. set (l := map _ items).
    assert (L : Forall (fun x : option task_state * doc => lay (snd x)) l).
    { apply Forall_map. rewrite Forall_forall in *. intros it Q. cbn. apply same_lay_blocks; auto. }
    unfold md_list. cbn [md_spaces_before_list_item with_width]. destruct k as [start|b].
    + destruct (_ || _); [split; [reflexivity|constructor]|]. rewrite same_items. split; [reflexivity|].
      apply lay_intersperse; [apply lay_items; auto|constructor].
    + rewrite same_items. split; [reflexivity|]. apply lay_intersperse; [apply lay_items; auto|constructor].
  - split; [reflexivity|]. destruct c as [[|info] s]; cbn [md_code_block]; repeat apply lay_append; constructor.
  - split; [reflexivity|constructor].
  - split; [reflexivity|]. unfold md_definition. repeat first [apply lay_append | apply lay_inlines | constructor].
  - split; [reflexivity|]. unfold md_table. destruct (t_rows t); [constructor|]. destruct table_content; [|constructor].
    destruct render; constructor.
  - cbn [fd_label fd_blocks]. destruct (same_lay_blocks bs H) as [E L].
    { intros q Q. apply (N q). cbn [flat_map]. rewrite app_nil_r. cbn. right. exact Q. }
    rewrite E. split; [reflexivity|]. apply lay_append; [constructor|exact L].
  - cbn [ga_type ga_blocks]. destruct (same_lay_blocks bs H) as [E L].
    { intros q Q. apply (N q). cbn [flat_map]. rewrite app_nil_r. cbn. right. exact Q. }
    rewrite E. split; [reflexivity|]. unfold md_alert.
    assert (T : forall l, lay (intersperse (map DText l) DHardline)).
    { intro l. apply lay_intersperse; [|constructor]. apply Forall_map, Forall_forall. intros; constructor. }
    destruct bs; [apply T|]. destruct render; [apply T|constructor].
  - split; [reflexivity|constructor].
Qed.
End Config.

Lemma width_words config d w w' o o' : no_quotes (d_blocks d) ->
  render_markdown uwidth upper udigit big d (with_width config w) = Some o ->
  render_markdown uwidth upper udigit big d (with_width config w') = Some o' -> tokens o = tokens o'.
Proof.
  intros N E E'. unfold render_markdown, md_blocks in E, E'.
  destruct (same_lay_blocks config w (d_blocks d)) as [A L]; [apply Forall_forall; intros b _; apply same_block|exact N|].
  destruct (same_lay_blocks config w' (d_blocks d)) as [A' _]; [apply Forall_forall; intros b _; apply same_block|exact N|].
  rewrite A in E. rewrite A' in E'. unfold render in E, E'.
  destruct best as [[x p]|] eqn:B in E; [|discriminate]. destruct best as [[x' p']|] eqn:B' in E'; [|discriminate].
  injection E as <-. injection E' as <-. exact (lay_words _ L _ _ _ _ _ _ _ _ _ _ _ _ _ _ B B' []).
Qed.
Lemma width_panics config d w w' : no_quotes (d_blocks d) ->
  render_markdown uwidth upper udigit big d (with_width config w) = None ->
  render_markdown uwidth upper udigit big d (with_width config w') = None.
Proof.
  intros N E. destruct (render_markdown uwidth upper udigit big d (with_width config w')) eqn:E'; [|reflexivity]. exfalso.
  apply panics_exactly in E.
  assert (~ document_panics uwidth udigit (with_width config w') d).
  { intro H. apply (panics_exactly _ upper _ big) in H. congruence. }
  apply H. clear E' H. revert N E. unfold document_panics.
  assert (G : forall c i l, panics_blocks uwidth udigit (with_width config w) c i l -> no_quotes l ->
     panics_blocks uwidth udigit (with_width config w') c i l).
  { apply (panics_blocks_mind uwidth udigit (with_width config w)
      (fun c i b => no_quotes [b] -> panics uwidth udigit (with_width config w') c i b)
      (fun c i l => no_quotes l -> panics_blocks uwidth udigit (with_width config w') c i l)).
    - intros c i bs _ N. exfalso. apply (N bs). cbn. auto.
    - intros c i bs _ _ N. exfalso. apply (N bs). cbn. auto.
    - intros c i t bs _ IH N. constructor. apply IH. intros q Q. apply (N q). cbn [flat_map]. rewrite app_nil_r. cbn. auto.
    - intros; now constructor.
    - intros; now constructor.
    - intros c i k items j task bs E _ IH N. eapply panics_item; [exact E|]. apply IH. intros q Q. apply (N q).
      cbn [flat_map]. rewrite app_nil_r. cbn. right. apply in_flat_map. exists (ListItem task bs). split; auto.
      eapply nth_error_In; eassumption.
    - intros c i l bs _ IH N. constructor. apply IH. intros q Q. apply (N q). cbn [flat_map]. rewrite app_nil_r. cbn. auto.
    - intros c i b l _ IH N. apply no_quotes_cons in N as [A B]. apply panics_first. auto.
    - intros c i b l x I _ IH N. apply no_quotes_cons in N as [A B]. eapply panics_later; [exact I|]. apply IH.
      apply no_quotes_Forall in B. rewrite Forall_forall in B. auto. }
  intros N E. now apply G.
Qed.
End Words.

(** ** Splitting layouts *)
Lemma laid_split aft pa i p pb : forall o, laid aft (pa ++ (i, p) :: pb) o ->
  exists oa ob, o = oa ++ ob /\ laid (Some i) pa oa /\ laid aft ((i, p) :: pb) ob.
Proof.
  induction pa as [|[j q] pa IH]; intros o L; cbn [app] in L.
  - exists [], o. repeat split; auto. constructor.
  - assert (NI : forall own, next_indent aft own (pa ++ (i, p) :: pb) = next_indent (Some i) own pa).
    { intro own. destruct pa as [|[? ?] ?]; reflexivity. }
    inversion L; subst;
      match goal with H : laid _ (pa ++ _) ?x |- _ => apply IH in H as (oa & ob & -> & A & B) end;
      rewrite ?NI.
    + exists (s ++ oa), ob. rewrite app_assoc. repeat split; auto. now constructor.
    + exists (c_sp :: oa), ob. repeat split; auto. now constructor.
    + exists (break_to (next_indent (Some i) j pa) ++ oa), ob. rewrite <- app_assoc. repeat split; auto. now constructor.
    + exists (break_to (next_indent (Some i) j pa) ++ oa), ob. rewrite <- app_assoc. repeat split; auto. now constructor.
    + eexists (_ ++ oa), ob. rewrite <- app_assoc. repeat split; auto. now constructor.
    + eexists (_ ++ oa), ob. rewrite <- app_assoc. repeat split; auto. now constructor.
Qed.
Lemma laid_words aft l : forall ps o, Forall word_piece l -> forall i, laid aft (at_ i l ++ ps) o ->
  exists o', o = flat_map piece_text l ++ o' /\ laid aft ps o'.
Proof.
  induction l as [|q l IH]; intros ps o F i L; cbn [at_ map app] in L; [exists o; auto|].
  inversion_clear F as [|? ? Q F']. destruct q; try contradiction. inversion L; subst.
  match goal with H : laid _ _ ?x |- _ => apply (IH ps x F' i) in H as (o' & -> & A) end.
  exists o'. split; auto. cbn. now rewrite app_assoc.
Qed.

Section Lists.
Variable upper : char -> str.
Variable udigit : char -> bool.
Variable config : md_config.
Definition item_text (kind : list_kind) (k : nat) (task : option task_state) (body : str) : str :=
  rep (md_spaces_before_list_item config) c_sp ++ marker kind k ++ [c_sp] ++ flat_map piece_text (task_view task) ++ body.
Lemma items_split kind (l : list (option task_state * pieces)) : forall k o, 0 < k -> laid None (item_pieces config 0 k kind l) o ->
  exists ls, o = flat_map (fun x => c_nl :: x) ls /\ List.length ls = List.length l /\
    forall j task ps, nth_error l j = Some (task, ps) ->
      exists body, nth_error ls j = Some (item_text kind (k + j) task body) /\
        laid (if S j =? List.length l then None else Some 0) ps body.
Proof.
  induction l as [|[t ps] l IH]; intros k o K L.
  - inversion L; subst. exists []. repeat split; auto. intros [|j]; discriminate.
  - cbn [item_pieces] in L. assert (E : (k =? 0) = false) by (apply Nat.eqb_neq; lia). rewrite E in L.
    cbn [app] in L. inversion L; subst. clear L. rename o0 into o.
    replace (next_indent None 0 _) with 0 by reflexivity.
    match goal with H : laid None ?q o |- _ => 
      change q with (at_ 0 ([Word (rep (md_spaces_before_list_item config) c_sp); Word (marker kind k); Word [c_sp]] ++ task_view t)
                      ++ (ps ++ item_pieces config 0 (S k) kind l)) in H;
      apply laid_words in H as (o' & -> & L) end.
    2: { apply Forall_app. split; [repeat constructor|]. destruct t as [[|]|]; repeat constructor. }
    destruct l as [|[t' ps'] l].
    + cbn [item_pieces] in L. rewrite app_nil_r in L. exists [item_text kind k t o']. repeat split.
      * cbn. rewrite app_nil_r. unfold item_text. cbn. rewrite <- !app_assoc. reflexivity.
      * intros [|j] task ps0 E0; [|destruct j; discriminate]. injection E0 as <- <-. exists o'. rewrite Nat.add_0_r. auto.
    + assert (S' : exists q qs, item_pieces config 0 (S k) kind ((t', ps') :: l) = (0, q) :: qs) by (cbn; eauto).
      destruct S' as (q & qs & Q). rewrite Q in L. apply laid_split in L as (body & o2 & -> & A & B). rewrite <- Q in B.
      apply IH in B as (ls & -> & Len & N); [|lia].
      exists (item_text kind k t body :: ls). repeat split.
      * cbn [flat_map]. unfold item_text. rewrite flat_map_app. cbn. rewrite <- ?app_assoc. cbn. rewrite <- ?app_assoc. reflexivity.
      * cbn. now f_equal.
      * intros [|j] task ps0 E0.
        -- injection E0 as <- <-. exists body. rewrite Nat.add_0_r. auto.
        -- apply N in E0 as (b & E1 & E2). exists b. rewrite <- plus_n_Sm. split; [exact E1|exact E2].
Qed.
Lemma items_split0 kind (l : list (option task_state * pieces)) : forall o, laid None (item_pieces config 0 0 kind l) o ->
  exists ls, o = join [c_nl] ls /\ List.length ls = List.length l /\
    forall j task ps, nth_error l j = Some (task, ps) ->
      exists body, nth_error ls j = Some (item_text kind j task body) /\
        laid (if S j =? List.length l then None else Some 0) ps body.
Proof.
  intros o L. destruct l as [|[t ps] l].
  - inversion L; subst. exists []. repeat split; auto. intros [|j]; discriminate.
  - cbn [item_pieces Nat.eqb] in L. change ([] ++ ?x) with x in L.
    apply laid_words in L as (o' & -> & L).
    2: { apply Forall_app. split; [repeat constructor|]. destruct t as [[|]|]; repeat constructor. }
    destruct l as [|[t' ps'] l].
    + cbn [item_pieces] in L. rewrite app_nil_r in L. exists [item_text kind 0 t o']. repeat split.
      * cbn. unfold item_text. cbn. rewrite <- !app_assoc. reflexivity.
      * intros [|j] task ps0 E0; [|destruct j; discriminate]. injection E0 as <- <-. exists o'. auto.
    + assert (S' : exists q qs, item_pieces config 0 1 kind ((t', ps') :: l) = (0, q) :: qs) by (cbn; eauto).
      destruct S' as (q & qs & Q). rewrite Q in L. apply laid_split in L as (body & o2 & -> & A & B). rewrite <- Q in B.
      apply items_split in B as (ls & -> & Len & N); [|lia].
      exists (item_text kind 0 t body :: ls). repeat split.
      * rewrite join_flat. unfold item_text. rewrite flat_map_app. cbn. rewrite <- ?app_assoc. cbn. rewrite <- ?app_assoc. reflexivity.
      * cbn. now f_equal.
      * intros [|j] task ps0 E0.
        -- injection E0 as <- <-. exists body. auto.
        -- apply N in E0 as (b & E1 & E2). exists b. split; [exact E1|exact E2].
Qed.
End Lists.

(** ** Wrapped lines *)
Lemma repeat_eqb c s : forallb (N.eqb c) s = true -> s = repeat c (List.length s).
Proof.
  induction s as [|d s IH]; [reflexivity|]. cbn. intro H. apply andb_true_iff in H as [A B]. apply N.eqb_eq in A. subst. f_equal. auto.
Qed.
Lemma forallb_repeat c n : forallb (N.eqb c) (repeat c n) = true.
Proof. induction n; cbn; auto. now rewrite N.eqb_refl. Qed.
Section Unsafe.
Variable udigit : char -> bool.
Lemma regex_digit_spec c : regex_digit udigit c = true <-> digit udigit c.
Proof.
  unfold regex_digit, digit. rewrite orb_true_iff, andb_true_iff, negb_true_iff. tauto.
Qed.
Lemma starts_with_iff p s : starts_with p s = true <-> exists r, s = p ++ r.
Proof.
  revert s. induction p as [|c p IH]; intro s; cbn; [split; eauto|]. destruct s as [|d s].
  - split; [discriminate|]. intros (r & E). discriminate.
  - rewrite andb_true_iff, IH, N.eqb_eq. split.
    + intros (-> & r & ->). eauto.
    + intros (r & E). injection E as -> ->. eauto.
Qed.
Lemma digits_dot_iff s : digits_dot udigit s = true <-> exists ds, Forall (digit udigit) ds /\ s = ds ++ lit ".".
Proof.
  induction s as [|c s IH]; cbn [digits_dot].
  - split; [discriminate|]. intros ([|? ?] & _ & E); discriminate.
  - destruct s as [|d s].
    + rewrite N.eqb_eq. split.
      * intros ->. now exists [].
      * intros ([|x [|y ds]] & F & E); try discriminate. now injection E as ->.
    + rewrite andb_true_iff, regex_digit_spec, IH. split.
      * intros (D & ds & F & ->). exists (c :: ds). split; [now constructor|reflexivity].
      * intros ([|x ds] & F & E); [discriminate|]. injection E as -> E. inversion_clear F. split; auto. exists ds. auto.
Qed.
Lemma utf8_len_pos c : 1 <= utf8_len c.
Proof. unfold utf8_len. repeat dif; lia. Qed.
Lemma utf8_len_ascii c : is_ascii c = true -> utf8_len c = 1.
Proof. unfold is_ascii, utf8_len. now intros ->. Qed.
Lemma byte_len_ge s : List.length s <= byte_len s.
Proof. induction s as [|c s IH]; cbn; [lia|]. pose proof (utf8_len_pos c). unfold byte_len in IH. lia. Qed.
Lemma byte_len_one s : byte_len s = 1 -> exists c, s = [c].
Proof.
  destruct s as [|c [|d s]]; cbn; intro H; [discriminate|eauto|].
  pose proof (utf8_len_pos c). pose proof (utf8_len_pos d). lia.
Qed.
(** for a word, the detector is exactly the list of unsafe words *)
Lemma unsafe_iff w : w <> [] -> Forall (fun c => is_whitespace c = false) w ->
  (unsafe udigit w = true <-> unsafe_word udigit w).
Proof.
  intros NE F. unfold unsafe, is_markdown_syntax_at_line_start.
  destruct w as [|c w]; [congruence|]. inversion_clear F as [|? ? WS F'].
  assert (TAB : N.eqb c c_tab = false). { apply N.eqb_neq. intros ->. discriminate. }
  assert (SP : starts_with (lit "    ") (c :: w) = false).
  { destruct (starts_with (lit "    ") (c :: w)) eqn:E; [|reflexivity].
    apply starts_with_iff in E as (r & E). injection E as -> _. discriminate. }
  rewrite TAB, SP. cbn [orb].
  split.
  - destruct (Nat.eqb_spec (byte_len (c :: w)) 1) as [L|L].
    + intro H. apply byte_len_one in L as (d & E). injection E as -> ->. apply unsafe_single.
      apply existsb_exists in H as (x & I & X). apply N.eqb_eq in X. now subst.
    + rewrite !orb_false_r, !orb_true_iff, andb_true_iff. intros [[[[H1 H2]|H]|H]|H].
      * apply N.eqb_eq in H1. subst c. apply repeat_eqb in H2. rewrite H2. apply unsafe_hashes.
      * unfold ordered_list_regex in H. apply andb_true_iff in H as [A B]. apply regex_digit_spec in A.
        apply digits_dot_iff in B as (ds & D & ->). apply (unsafe_number udigit c ds). now constructor.
      * unfold horizontal_rule_regex, all_at_least in H. rewrite !orb_true_iff, !andb_true_iff, !Nat.leb_le in H.
        destruct H as [[[A B]|[A B]]|[A B]]; apply repeat_eqb in B; rewrite B; apply unsafe_rule; auto; cbn; auto.
      * unfold code_fence_regex in H. apply orb_true_iff in H as [H|H]; apply starts_with_iff in H as (r & ->);
        apply unsafe_fence; cbn; auto.
  - intro U.
    assert (One : forall d, is_ascii d = true -> byte_len [d] = 1).
    { intros d A. cbn. now rewrite utf8_len_ascii. }
    assert (More : forall d e r, c :: w = d :: e :: r -> (byte_len (c :: w) =? 1) = false).
    { intros d e r ->. apply Nat.eqb_neq. cbn. pose proof (utf8_len_pos d). pose proof (utf8_len_pos e). lia. }
    remember (c :: w) as v eqn:E. symmetry in E.
    destruct U as [d I|n|d l D|d n I N|f r I].
    + injection E as -> ->. assert (A : is_ascii d = true) by (cbn in I; intuition subst; reflexivity). rewrite One by auto. cbn [Nat.eqb].
      apply existsb_exists. exists d. split; auto. apply N.eqb_refl.
    + destruct n as [|n].
      * injection E as -> ->. reflexivity.
      * rewrite (More (ch "#") (ch "#") (repeat (ch "#") n)) by reflexivity. rewrite forallb_repeat.
        injection E as -> _. reflexivity.
    + rewrite (More d (hd 0%N (l ++ lit ".")) (tl (l ++ lit "."))) by (destruct l; reflexivity).
      injection E as -> ->. inversion_clear D.
      assert (O : ordered_list_regex udigit (d :: l ++ lit ".") = true).
      { cbn [ordered_list_regex]. apply andb_true_iff. split; [now apply regex_digit_spec|]. apply digits_dot_iff. eauto. }
      cbn [app]. rewrite O. rewrite !orb_true_r. reflexivity.
    + destruct n as [|[|[|n]]]; try lia. rewrite (More d d (d :: repeat d n)) by reflexivity.
      assert (H : horizontal_rule_regex (repeat d (S (S (S n)))) = true).
      { unfold horizontal_rule_regex, all_at_least.
        assert (B : forall x, x = d -> (3 <=? List.length (repeat d (S (S (S n))))) && forallb (N.eqb x) (repeat d (S (S (S n)))) = true).
        { intros x ->. rewrite forallb_repeat, repeat_length. reflexivity. }
        change (lit "-*_") with [ch "-"; ch "*"; ch "_"] in I.
        destruct I as [I|[I|[I|[]]]]; apply B in I; rewrite I; rewrite ?orb_true_r; reflexivity. }
      rewrite H. rewrite !orb_true_r. reflexivity.
    + assert (H : code_fence_regex (f ++ r) = true).
      { unfold code_fence_regex. apply orb_true_iff.
        destruct I as [<-|[<-|[]]]; [left|right]; apply starts_with_iff; eauto. }
      destruct (byte_len (f ++ r) =? 1) eqn:B.
      * exfalso. apply Nat.eqb_eq in B. pose proof (byte_len_ge (f ++ r)) as G.
        rewrite app_length in G. destruct I as [<-|[<-|[]]]; cbn in G, B; lia.
      * rewrite H. rewrite !orb_true_r. reflexivity.
Qed.
End Unsafe.

Section Wrap.
Variable udigit : char -> bool.
(** words and single blanks, no two words side by side *)
Inductive wf_tokens : list (option str) -> Prop :=
| wf_nil : wf_tokens []
| wf_word : forall w l, w <> [] -> Forall (fun c => is_whitespace c = false) w -> wf_tokens l ->
    match l with Some _ :: _ => False | _ => True end -> wf_tokens (Some w :: l)
| wf_blank : forall l, wf_tokens l -> match l with None :: _ => False | _ => True end -> wf_tokens (None :: l).
Lemma tokens_wf t : wf_tokens (tokens t).
Proof.
  induction t as [|c t IH]; [constructor|]. unfold tokens in *. cbn [fold_right]. unfold token_char at 1.
  destruct (is_whitespace c) eqn:W.
  - destruct (fold_right token_char [] t) as [|[w|] l]; auto; constructor; auto.
  - destruct (fold_right token_char [] t) as [|[w|] l].
    + repeat constructor; auto. discriminate.
    + inversion IH; subst. constructor; auto. discriminate.
    + constructor; auto. discriminate.
Qed.
Lemma tk_word w l : w <> [] -> Forall (fun c => is_whitespace c = false) w ->
  match l with Some _ :: _ => False | _ => True end -> tk w l = Some w :: l.
Proof.
  intros NE F N. induction F as [|c w W F IH]; [congruence|]. unfold tk in *. cbn [fold_right]. destruct w as [|d w].
  - cbn. unfold token_char. rewrite W. destruct l as [|[?|] ?]; try reflexivity. contradiction.
  - rewrite IH by discriminate. unfold token_char. rewrite W. reflexivity.
Qed.
Lemma flowing_tokens l : wf_tokens l -> forall aft o, laid aft (at_ 0 (flowing udigit l)) o -> tokens o = l.
Proof.
  induction 1 as [|w l NE F WF IH N|l WF IH N]; intros aft o L; cbn [flowing at_ map] in L.
  - inversion L. reflexivity.
  - inversion L; subst. change (tokens ?x) with (tk x []). rewrite tk_app. change (tk ?x []) with (tokens x).
    erewrite IH by eassumption. now apply tk_word.
  - assert (B : forall r, tokens r = l -> token_char c_sp (tokens r) = None :: l).
    { intros r ->. unfold token_char. cbn. destruct l as [|[?|] ?]; auto. contradiction. }
    destruct l as [|[w|] l]; [| |contradiction].
    + inversion L; subst; match goal with H : laid _ [] _ |- _ => inversion H; subst end.
      * reflexivity.
      * change (tokens ?x) with (tk x []). rewrite tk_app, tk_break. reflexivity.
    + destruct (unsafe udigit w); inversion L; subst.
      * change (tokens ([c_sp] ++ ?x)) with (token_char c_sp (tokens x)). apply B. eapply IH; eassumption.
      * change (tokens (c_sp :: ?x)) with (token_char c_sp (tokens x)). apply B. eapply IH; eassumption.
      * change (tokens (?a ++ ?x)) with (tk (a ++ x) []). rewrite tk_app, tk_break. change (tk ?x []) with (tokens x).
        apply B. eapply IH; eassumption.
Qed.
Lemma flowing_break l : wf_tokens l -> forall a b, laid None (at_ 0 (flowing udigit l)) (a ++ c_nl :: b) ->
  exists l1 l2, l = l1 ++ None :: l2 /\ laid None (at_ 0 (flowing udigit l2)) b /\
    match l2 with Some w :: _ => unsafe udigit w = false | _ => True end.
Proof.
  induction 1 as [|w l NE F WF IH N|l WF IH N]; intros a b L; cbn [flowing at_ map] in L.
  - inversion L. now destruct a.
  - inversion L as [|? ? ? o L' E1 E2| | | | |]; subst.
    assert (D : exists a', o = a' ++ c_nl :: b).
    { clear - F E2. revert a E2. induction F as [|c w W F IH]; intros a E; [eauto|].
      destruct a as [|d a]; [injection E as -> _; discriminate|]. injection E as _ E. eauto. }
    destruct D as (a' & ->). apply IH in L' as (l1 & l2 & -> & ? & ?). exists (Some w :: l1), l2. auto.
  - assert (G : forall o, laid None (at_ 0 (flowing udigit l)) o -> c_sp :: o = a ++ c_nl :: b ->
       exists l1 l2, None :: l = l1 ++ None :: l2 /\ laid None (at_ 0 (flowing udigit l2)) b /\
         match l2 with Some w :: _ => unsafe udigit w = false | _ => True end).
    { intros o L' E. destruct a as [|d a]; [discriminate|]. injection E as _ ->.
      apply IH in L' as (l1 & l2 & -> & ? & ?). exists (None :: l1), l2. auto. }
    assert (K : forall o, match l with Some w :: _ => unsafe udigit w = false | _ => True end ->
       laid None (at_ 0 (flowing udigit l)) o -> c_nl :: o = a ++ c_nl :: b ->
       exists l1 l2, None :: l = l1 ++ None :: l2 /\ laid None (at_ 0 (flowing udigit l2)) b /\
         match l2 with Some w :: _ => unsafe udigit w = false | _ => True end).
    { intros o U L' E. destruct a as [|d a].
      - injection E as ->. exists [], l. auto.
      - injection E as _ ->. apply IH in L' as (l1 & l2 & -> & ? & ?). exists (None :: l1), l2. auto. }
    destruct l as [|[w|] l]; [| |contradiction].
    + inversion L as [| |? ? o L' E1 E2|? ? o L' E1 E2| | |]; subst; eauto. 
    + destruct (unsafe udigit w) eqn:U.
      * inversion L as [|? ? ? o L' E1 E2| | | | |]; subst. eauto.
      * inversion L as [| |? ? o L' E1 E2|? ? o L' E1 E2| | |]; subst; eauto.
Qed.
Lemma wf_suffix l1 : forall l2, wf_tokens (l1 ++ None :: l2) -> wf_tokens l2 /\ match l2 with None :: _ => False | _ => True end.
Proof. induction l1 as [|x l1 IH]; intros l2 H; cbn in H; inversion H; subst; auto. Qed.
(** a line begun by wrapping is empty or begins with a word that is not unsafe *)
Lemma wrapped_line t a b : laid None (at_ 0 (flowing udigit (tokens t))) (a ++ c_nl :: b) ->
  b = [] \/ exists w l, tokens b = Some w :: l /\ ~ unsafe_word udigit w.
Proof.
  intro L. pose proof (tokens_wf t) as WF. apply flowing_break in L as (l1 & l2 & E & L & U); auto.
  rewrite E in WF. apply wf_suffix in WF as [WF N]. destruct l2 as [|[w|] l2]; [|right|contradiction].
  - left. now inversion L.
  - exists w, l2. split; [eapply flowing_tokens; eassumption|]. intro H. inversion WF; subst. apply unsafe_iff in H; auto. congruence.
Qed.
End Wrap.

(** ** Tables *)
Section Tables.
Variable uwidth : str -> nat.
Variable upper : char -> str.
Variable udigit : char -> bool.
Variable big : nat.
Lemma rep_length n c : List.length (rep n c) = n.
Proof. apply repeat_length. Qed.
Lemma cell_pad_placed al w s : placed al s (cell_pad al w s).
Proof.
  unfold placed, cell_pad. destruct al.
  - exists 0, (w - List.length s). auto.
  - exists 0, (w - List.length s). auto.
  - exists ((w - List.length s) / 2), (w - List.length s - (w - List.length s) / 2). split; [reflexivity|].
    set (n := w - List.length s). pose proof (Nat.div_mod_eq n 2). pose proof (Nat.mod_upper_bound n 2). lia.
  - exists (w - List.length s), 0. split; [|reflexivity]. now rewrite app_nil_r.
Qed.
Lemma cell_pad_length al w s : List.length s <= w -> List.length (cell_pad al w s) = w.
Proof.
  intro L. unfold cell_pad. pose proof (Nat.div_mod_eq (w - List.length s) 2).
  destruct al; rewrite !app_length, !rep_length; lia.
Qed.
Lemma delimiter_delimits al w : least_width al <= w -> delimits al (delimiter al w).
Proof.
  unfold delimits, delimiter. destruct al; cbn [least_width]; intro L.
  - exists w. auto.
  - exists w. auto.
  - exists (w - 2). split; [lia|reflexivity].
  - exists (w - 1). split; [lia|reflexivity].
Qed.
Lemma delimiter_length al w : least_width al <= w -> List.length (delimiter al w) = w.
Proof.
  unfold delimiter. destruct al; cbn [least_width]; intro L; rewrite ?app_length, ?rep_length; cbn; rewrite ?app_length, ?rep_length; cbn; lia.
Qed.
Lemma nth_error_Some_length {A} (l : list A) k x : nth_error l k = Some x -> k < List.length l.
Proof. intro E. apply nth_error_Some. congruence. Qed.
Lemma nth_error_map_seq {A} (f : nat -> A) n k x : nth_error (map f (seq 0 n)) k = Some x -> x = f k.
Proof.
  intro E. assert (L : k < n). { apply nth_error_Some_length in E. now rewrite map_length, seq_length in E. }
  rewrite nth_error_map in E. rewrite (nth_error_nth' _ 0) in E by now rewrite seq_length. rewrite seq_nth in E by auto.
  cbn in E. congruence.
Qed.
Lemma lines_go_prefix x : ~ In c_nl x -> forall cur s, lines_go cur (x ++ s) = lines_go (rev x ++ cur) s.
Proof.
  induction x as [|c x IH]; intros N cur s; [reflexivity|]. cbn [app lines_go].
  destruct (N.eqb_spec c c_nl) as [->|]; [exfalso; apply N; now left|]. rewrite IH by (intro; apply N; now right).
  cbn [rev]. now rewrite <- app_assoc.
Qed.
Lemma lines_join l : Forall (fun x => ~ In c_nl x /\ exists y c, x = y ++ [c] /\ c <> c_cr) l -> lines (join [c_nl] l) = l.
Proof.
  unfold lines. induction 1 as [|x l (N & y & c & -> & C) F IH]; [reflexivity|].
  destruct l as [|z l].
  - cbn [join]. rewrite <- (app_nil_r (y ++ [c])). rewrite lines_go_prefix by auto. rewrite !app_nil_r. rewrite rev_app_distr. cbn.
    now rewrite rev_involutive.
  - change (join [c_nl] ((y ++ [c]) :: z :: l)) with ((y ++ [c]) ++ [c_nl] ++ join [c_nl] (z :: l)).
    rewrite lines_go_prefix by auto. rewrite app_nil_r. cbn [app lines_go]. rewrite N.eqb_refl.
    rewrite rev_app_distr. cbn [app rev]. destruct (N.eqb_spec c c_cr); [contradiction|].
    rewrite IH. cbn. rewrite rev_involutive. reflexivity.
Qed.
Lemma rect_overflow t : md_rectangular t -> ~ table_overflow udigit t.
Proof.
  intros R (header & row & k & cell & H & I & N & L & _). unfold md_rectangular in R. rewrite Forall_forall in R.
  assert (Hh : In header (t_rows t)) by (destruct (t_rows t); [discriminate|]; injection H as ->; now left).
  apply R in I, Hh. apply nth_error_Some_length in N. unfold table_row in *. rewrite I, Hh in *. lia.
Qed.
Lemma table_document config t : t_rows t <> [] -> md_rectangular t ->
  render_markdown uwidth upper udigit big (Document [BTable t]) config = Some (join [c_nl] (table_lines udigit t)).
Proof.
  intros NE R. destruct render_markdown as [o|] eqn:E.
  - apply view_laid in E. unfold document_view in E. cbn [d_blocks map blocks_pieces separated block_view] in E.
    rewrite app_nil_r in E. destruct (t_rows t) as [|h b] eqn:T; [congruence|]. inversion E; subst.
    match goal with H : laid _ [] _ |- _ => inversion H; subst end. now rewrite app_nil_r.
  - apply panics_exactly in E. unfold document_panics in E. inversion E; subst; [|easy].
    match goal with H : panics _ _ _ _ _ _ |- _ => inversion H; subst end. exfalso. eapply rect_overflow; eassumption.
Qed.
Lemma row_widths t row : md_rectangular t -> In row (t_rows t) ->
  map (@List.length char) (table_row_cells udigit t row) = map (widest udigit t) (seq 0 (List.length (t_alignments t))).
Proof.
  intros R I. pose proof R as R'. unfold md_rectangular in R'. rewrite Forall_forall in R'.
  assert (L := R' _ I). unfold table_row_cells. rewrite map_map, L. apply map_ext_in. intros k K. apply in_seq in K.
  assert (C : column_chars udigit t k = widest udigit t k).
  { unfold column_chars. destruct (t_rows t) as [|h b] eqn:T; [contradiction|]. cbn [hd].
    assert (Lh : List.length h = List.length (t_alignments t)) by (apply R'; now left). unfold table_row in *.
    rewrite Lh. assert (Q : k <? List.length (t_alignments t) = true) by (apply Nat.ltb_lt; lia). now rewrite Q. }
  rewrite C. apply cell_pad_length. now apply widest_enough.
Qed.
Lemma delimiter_widths t : md_rectangular t -> t_rows t <> [] ->
  map (@List.length char) (delimiter_cells udigit t) = map (widest udigit t) (seq 0 (List.length (t_alignments t))).
Proof.
  intros R NE. unfold delimiter_cells. rewrite map_map. apply map_ext_in. intros k K. apply in_seq in K.
  rewrite delimiter_length by apply column_chars_least.
  unfold column_chars. destruct (t_rows t) as [|h b] eqn:T; [congruence|]. cbn [hd].
  assert (Lh : List.length h = List.length (t_alignments t)).
  { unfold md_rectangular in R. rewrite Forall_forall in R. apply R. rewrite T. now left. }
  unfold table_row in *. rewrite Lh. assert (Q : k <? List.length (t_alignments t) = true) by (apply Nat.ltb_lt; lia). now rewrite Q.
Qed.
Lemma table_line_length cells : List.length (table_line cells) = 4 + fold_right (fun c n => List.length c + n) 0 cells + 3 * (List.length cells - 1).
Proof.
  unfold table_line. rewrite !app_length. change (List.length (lit "| ")) with 2. change (List.length (lit " |")) with 2.
  assert (J : List.length (join (lit " | ") cells) = fold_right (fun c n => List.length c + n) 0 cells + 3 * (List.length cells - 1)).
  { induction cells as [|x l IH]; [reflexivity|]. destruct l as [|y l]; [cbn; lia|].
    change (join (lit " | ") (x :: y :: l)) with (x ++ lit " | " ++ join (lit " | ") (y :: l)). rewrite !app_length, IH.
    change (List.length (lit " | ")) with 3. cbn [fold_right List.length]. lia. }
  rewrite J. lia.
Qed.
Lemma table_line_same a b : map (@List.length char) a = map (@List.length char) b -> List.length (table_line a) = List.length (table_line b).
Proof.
  intro E. rewrite !table_line_length.
  assert (F : forall l, fold_right (fun (c : str) n => List.length c + n) 0 l = fold_right Nat.add 0 (map (@List.length char) l)).
  { induction l; cbn; auto. }
  rewrite !F, E. assert (L := f_equal (@List.length nat) E). rewrite !map_length in L. unfold str, char in *. lia.
Qed.
End Tables.
