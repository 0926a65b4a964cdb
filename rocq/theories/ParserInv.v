(** Properties of everything the parser returns: a node-local predicate on
    inlines and one on blocks hold throughout a parsed document as soon as they
    hold of every node the parser builds. *)
From Coq Require Import String.
From Verif Require Export ParserBlockFacts SpecParser.
Import ListNotations.
Open Scope list_scope.
Local Notation len := (@List.length _).

Definition outs {A} (Q : A -> Prop) (p : parser A) : Prop := forall s r a, p s = Ok r a -> Q a.

Lemma outs_true : forall A (p : parser A), outs (fun _ => True) p. Proof. now intros. Qed.
Lemma outs_ret : forall A (Q : A -> Prop) a, Q a -> outs Q (ret a).
Proof. intros A Q a H s r b E. now injection E as <- <-. Qed.
Lemma outs_fail : forall A (Q : A -> Prop), outs Q fail. Proof. intros A Q s r a E. discriminate. Qed.
Lemma outs_bind : forall A B (P : A -> Prop) (Q : B -> Prop) p f,
  outs P p -> (forall a, P a -> outs Q (f a)) -> outs Q (bind p f).
Proof.
  intros A B P Q p f Hp Hf s r b E. unfold bind in E. destruct (p s) as [r1 a| |] eqn:E1; try discriminate.
  eapply Hf; [eapply Hp; exact E1|exact E].
Qed.
Lemma outs_bind_t : forall A B (Q : B -> Prop) (p : parser A) f,
  (forall a, outs Q (f a)) -> outs Q (bind p f).
Proof. intros. eapply outs_bind; [apply outs_true|]. intros a _. apply H. Qed.
Lemma outs_pmap : forall A B (P : A -> Prop) (Q : B -> Prop) p (f : A -> B),
  outs P p -> (forall a, P a -> Q (f a)) -> outs Q (pmap f p).
Proof. intros A B P Q p f Hp Hf. eapply outs_bind; [exact Hp|]. intros a Ha. apply outs_ret. now apply Hf. Qed.
Lemma outs_or_else : forall A (Q : A -> Prop) p q, outs Q p -> outs Q q -> outs Q (or_else p q).
Proof.
  intros A Q p q Hp Hq s r a E. unfold or_else in E. destruct (p s) as [r1 a1| |] eqn:E1; try discriminate.
  - injection E as <- <-. exact (Hp _ _ _ E1).
  - exact (Hq _ _ _ E).
Qed.
Lemma outs_alt : forall A (Q : A -> Prop) l, Forall (outs Q) l -> outs Q (alt l).
Proof.
  intros A Q. induction l as [|p l IH]; intros H; [apply outs_fail|]. inversion H; subst.
  destruct l as [|q l]; [assumption|]. apply outs_or_else; [assumption|]. now apply IH.
Qed.
Lemma outs_many0 : forall A (Q : A -> Prop) p, outs Q p -> outs (Forall Q) (many0 p).
Proof.
  intros A Q p Hp s. unfold many0. generalize (S (len s)) as f. intros f. revert s.
  induction f as [|f IH]; intros s r l E; [discriminate|]. cbn [many0_go] in E.
  destruct (p s) as [r1 a| |] eqn:E1; try discriminate; [|injection E as <- <-; constructor].
  destruct (_ =? _); [discriminate|]. destruct (many0_go f p r1) eqn:E2; try discriminate.
  injection E as <- <-. constructor; [exact (Hp _ _ _ E1)|]. eapply IH; exact E2.
Qed.
Lemma outs_many1 : forall A (Q : A -> Prop) p, outs Q p -> outs (fun l => l <> [] /\ Forall Q l) (many1 p).
Proof.
  intros A Q p Hp. eapply outs_bind; [exact Hp|]. intros a Ha. eapply outs_pmap; [apply outs_many0, Hp|].
  intros l Hl. split; [discriminate|now constructor].
Qed.
Lemma outs_sep1 : forall A B (Q : A -> Prop) (sep : parser B) p, outs Q p ->
  outs (fun l => l <> [] /\ Forall Q l) (separated_list1 sep p).
Proof.
  intros A B Q sep p Hp. eapply outs_bind; [exact Hp|]. intros a Ha.
  eapply (outs_pmap _ _ (Forall Q)); [|intros l Hl; split; [discriminate|now constructor]].
  intros s. generalize (S (len s)) as f. intros f. revert s.
  induction f as [|f IH]; intros s r l E; [discriminate|]. cbn [sep_go] in E.
  destruct (sep s) as [r1 b| |]; try discriminate; [|injection E as <- <-; constructor].
  destruct (p r1) as [r2 a2| |] eqn:E1; try discriminate; [|injection E as <- <-; constructor].
  destruct (_ =? _); [discriminate|]. destruct (sep_go f sep p r2) eqn:E2; try discriminate.
  injection E as <- <-. constructor; [exact (Hp _ _ _ E1)|]. eapply IH; exact E2.
Qed.
Lemma outs_many_1_n : forall A (p : parser A) n, outs (fun l => 1 <= len l <= S n) (many_m_n 1 (S n) p).
Proof.
  intros A p n s r l E. cbn [many_m_n] in E. destruct (p s) as [r1 a| |]; try discriminate.
  destruct (_ =? _); [discriminate|]. cbn [pred] in E.
  destruct (many_m_n 0 n p r1) as [r2 l2| |] eqn:E2; try discriminate. injection E as <- <-.
  assert (X : forall n s r l, many_m_n 0 n p s = Ok r l -> len l <= n).
  { clear. induction n as [|n IH]; intros s r l E; cbn [many_m_n] in E; [injection E as <- <-; cbn; lia|].
    destruct (p s) as [r1 a| |]; try discriminate; [|injection E as <- <-; cbn; lia].
    destruct (_ =? _); [discriminate|]. cbn [pred] in E. destruct (many_m_n 0 n p r1) eqn:E2; try discriminate.
    injection E as <- <-. apply IH in E2. cbn. lia. }
  apply X in E2. cbn. lia.
Qed.
Lemma outs_nested : forall A (Q : A -> Prop) p c, outs Q p -> outs Q (nested p c).
Proof.
  intros A Q p c Hp s r a E. unfold nested in E. destruct (p c) eqn:E1; try discriminate.
  injection E as <- <-. exact (Hp _ _ _ E1).
Qed.
Lemma outs_weaken : forall A (P Q : A -> Prop) p, outs P p -> (forall a, P a -> Q a) -> outs Q p.
Proof. intros A P Q p H HQ s r a E. exact (HQ _ (H _ _ _ E)). Qed.
Lemma outs_peek : forall A (Q : A -> Prop) p, outs Q p -> outs Q (peek p).
Proof. intros A Q p H s r a E. unfold peek in E. destruct (p s) eqn:E1; try discriminate. injection E as <- <-. exact (H _ _ _ E1). Qed.
Lemma outs_opt : forall A (Q : A -> Prop) p, outs Q p -> outs (fun o => forall a, o = Some a -> Q a) (opt p).
Proof.
  intros A Q p H s r a E b ->. unfold opt in E. destruct (p s) eqn:E1; try discriminate. injection E as <- <-. exact (H _ _ _ E1).
Qed.
Lemma outs_terminated : forall A B (Q : A -> Prop) (p : parser A) (q : parser B), outs Q p -> outs Q (terminated p q).
Proof. intros A B Q p q Hp. eapply outs_bind; [exact Hp|]. intros a Ha. eapply outs_pmap; [apply outs_true|]. now intros. Qed.
Lemma outs_preceded : forall A B (Q : B -> Prop) (p : parser A) (q : parser B), outs Q q -> outs Q (preceded p q).
Proof. intros A B Q p q Hq. now apply outs_bind_t. Qed.
Lemma outs_delimited : forall A B C (Q : B -> Prop) (p : parser A) (q : parser B) (t : parser C), outs Q q -> outs Q (delimited p q t).
Proof. intros. now apply outs_preceded, outs_terminated. Qed.
Lemma outs_ext : forall A (Q : A -> Prop) p q, (forall s, p s = q s) -> outs Q q -> outs Q p.
Proof. intros A Q p q H Hq s r a E. rewrite H in E. exact (Hq _ _ _ E). Qed.
Lemma outs_u64 : outs (fun v => (v <= u64_max)%N) u64.
Proof.
  intros s r a E. unfold u64 in E. destruct (span is_digit s) as [x y]. destruct x; [discriminate|].
  destruct (_ <=? _)%N eqn:L; [|discriminate]. injection E as <- <-. now apply N.leb_le.
Qed.
Lemma outs_conditional : forall A (P : A -> Prop) b d p,
  (yields b -> outs P p) -> hook_keeps P b -> Forall P d -> outs (Forall P) (conditional b d p).
Proof.
  intros A P b d p Hp Hh Hd. destruct b; cbn [conditional].
  - eapply outs_pmap; [apply Hp; exact I|]. intros a Ha. now constructor.
  - apply outs_fail.
  - eapply outs_pmap; [apply outs_true|]. now intros.
  - eapply outs_pmap; [apply Hp; exact I|]. intros a Ha. constructor; [now apply Hh|constructor].
  - eapply outs_pmap; [apply Hp; exact I|]. intros a Ha. now apply Hh.
Qed.

Lemma outs_conditional_vec : forall (P : list block -> Prop) b p,
  (yields b -> outs P p) -> P [BEmpty] -> outs P (conditional_block_vec b p).
Proof.
  intros P b p Hp Hd. destruct b; cbn [conditional_block_vec]; try (apply Hp; exact I); [apply outs_fail|].
  eapply outs_pmap; [apply outs_true|]. now intros.
Qed.

(** ** Merging *)
Lemma merge_merged_go : forall l acc, merged (merge_go acc l).
Proof.
  assert (NC : forall i l, (forall t, i <> IText t) -> merged l -> merged (i :: l)).
  { intros i l Hi Hl a s t b E. destruct a as [|x a]; cbn in E.
    - injection E as -> _. now elim (Hi s).
    - injection E as -> E. exact (Hl _ _ _ _ E). }
  assert (TC : forall t i l, (forall t, i <> IText t) -> merged (i :: l) -> merged (IText t :: i :: l)).
  { intros u i l Hi Hl a s t b E. destruct a as [|x a]; cbn in E.
    - injection E as _ -> _. now elim (Hi t).
    - injection E as _ E. exact (Hl _ _ _ _ E). }
  induction l as [|i l IH]; intros acc; cbn [merge_go].
  - destruct acc; intros a s' t b E; destruct a as [|? [|]]; discriminate.
  - destruct i; try apply IH; (destruct acc; cbn [app]; [apply TC; [discriminate|]|]; (apply NC; [discriminate|apply IH])).
Qed.
Lemma merge_keeps : forall (P : inline -> Prop), (forall s, P (IText s)) -> forall l acc,
  Forall P l -> Forall P (merge_go acc l).
Proof.
  intros P HT. induction l as [|i l IH]; intros acc H; cbn [merge_go].
  - destruct acc; repeat constructor. apply HT.
  - inversion H; subst. destruct i; try (now apply IH); apply Forall_app; (split; [destruct acc; repeat constructor; apply HT|]);
    constructor; try assumption; now apply IH.
Qed.

(** ** Inlines *)
Definition everyI (PI : inline -> Prop) (i : inline) : Prop := Forall PI (inline_preorder i).
Definition everyIs (PI : inline -> Prop) (l : list inline) : Prop := merged l /\ Forall (everyI PI) l.
Lemma every_flat : forall PI l, Forall (everyI PI) l -> Forall PI (flat_map inline_preorder l).
Proof. intros PI l. induction 1; cbn; [constructor|]. apply Forall_app. now split. Qed.

Section Inlines.
  Variable cfg : config.
  Hypothesis Hc : custom_ok cfg.
  Variable PI : inline -> Prop.
  Notation good := (everyI PI).
  Notation goods := (everyIs PI).
  Hypothesis HU : inline_user_code_keeps good cfg.
  Hypothesis H_text : forall s, PI (IText s).
  Hypothesis H_empty : PI IEmpty.
  Hypothesis H_autolink : yields (i_autolink cfg) -> forall u, PI (IAutolink u).
  Hypothesis H_link : yields (i_link cfg) -> forall d t c, goods c -> PI (ILink (Link d t c)).
  Hypothesis H_fnref : yields (i_footnote_reference cfg) -> forall l, PI (IFootnoteReference l).
  Hypothesis H_ref : yields (i_reference_link cfg) -> forall l t, goods l -> goods t -> PI (ILinkReference (LinkReference l t)).
  Hypothesis H_br : yields (i_hard_newline cfg) -> PI ILineBreak.
  Hypothesis H_image : yields (i_image cfg) -> forall im, PI (IImage im).
  Hypothesis H_code : yields (i_code_span cfg) -> forall s, PI (ICode s).
  Hypothesis H_emph : yields (i_emphasis cfg) -> forall c, goods c -> PI (IEmphasis c).
  Hypothesis H_strong : yields (i_emphasis cfg) -> forall c, goods c -> PI (IStrong c).
  Hypothesis H_strike : yields (i_strikethrough cfg) -> forall c, goods c -> PI (IStrikethrough c).

  Section R.
    Variable rec : parser (list inline).
    Hypothesis Hrec : outs goods rec.

    Lemma outs_link_label : outs goods (p_link_label rec).
    Proof. apply outs_delimited. apply outs_bind_t. intro. now apply outs_nested. Qed.
    Lemma outs_inline_link : outs (fun l => goods (link_children l)) (p_inline_link rec).
    Proof.
      eapply outs_bind; [apply outs_link_label|]. intros c Hcc. apply outs_bind_t. intros [d t]. now apply outs_ret.
    Qed.
    Lemma good_ref : yields (i_reference_link cfg) -> forall l t, goods l -> goods t -> good (ILinkReference (LinkReference l t)).
    Proof.
      intros Y l t Hl Ht. constructor; [now apply H_ref|]. cbn. apply Forall_app; split; apply every_flat; [apply Hl|apply Ht].
    Qed.
    Lemma outs_reference_link : yields (i_reference_link cfg) -> outs good (p_reference_link rec).
    Proof.
      intros Y. apply outs_alt. repeat apply Forall_cons1; try constructor.
      - eapply outs_bind; [apply outs_link_label|]. intros t Ht. eapply outs_bind; [apply outs_link_label|].
        intros l Hl. apply outs_ret. now apply good_ref.
      - eapply outs_pmap; [apply outs_terminated, outs_link_label|]. intros. now apply good_ref.
      - eapply outs_pmap; [apply outs_link_label|]. intros. now apply good_ref.
    Qed.
    Lemma outs_emph : forall t, outs goods (p_emph cfg rec t).
    Proof. intro. apply outs_delimited. apply outs_bind_t. intro. now apply outs_nested. Qed.
    Lemma outs_emphasis : yields (i_emphasis cfg) -> outs good (p_emphasis cfg rec).
    Proof.
      intros Y. apply outs_alt. repeat apply Forall_cons1; try constructor;
      (eapply outs_pmap; [apply outs_alt; repeat apply Forall_cons1; try constructor; apply outs_emph|]); intros c Hcc.
      - constructor.
        + apply H_strong; [exact Y|]. split; [intros a s t b E; destruct a as [|? [|]]; discriminate|].
          constructor; [|constructor]. constructor; [now apply H_emph|]. apply every_flat, Hcc.
        + cbn. rewrite app_nil_r. constructor; [now apply H_emph|]. apply every_flat, Hcc.
      - constructor; [now apply H_strong|]. apply every_flat, Hcc.
      - constructor; [now apply H_emph|]. apply every_flat, Hcc.
    Qed.
    Lemma outs_strike : yields (i_strikethrough cfg) -> outs good (p_strikethrough rec).
    Proof.
      intros Y. apply outs_bind_t. intro. apply outs_bind_t. intro. apply outs_bind_t. intro.
      eapply outs_pmap; [apply outs_nested, Hrec|]. intros c Hcc. constructor; [now apply H_strike|]. apply every_flat, Hcc.
    Qed.
    Lemma outs_inline : outs (Forall good) (p_inline cfg rec).
    Proof.
      destruct HU as [HF HC]. repeat match goal with H : Forall _ (_ :: _) |- _ => inversion H; clear H; subst end.
      assert (E0 : Forall good [IEmpty]) by (constructor; [|constructor]; constructor; [exact H_empty|constructor]).
      apply outs_alt. repeat apply Forall_cons1; try constructor.
      - apply outs_conditional; try assumption. intros Y. eapply outs_pmap; [apply outs_true|]. intros u _.
        constructor; [now apply H_autolink|constructor].
      - apply outs_conditional; try assumption. intros Y. eapply outs_pmap; [apply outs_inline_link|]. intros [d t c] Hcc.
        constructor; [now apply H_link|]. apply every_flat, Hcc.
      - apply outs_conditional; try assumption. intros Y. eapply outs_pmap; [apply outs_true|]. intros u _.
        constructor; [now apply H_fnref|constructor].
      - apply outs_conditional; try assumption. apply outs_reference_link.
      - apply outs_conditional; try assumption. intros Y. eapply outs_pmap; [apply outs_true|]. intros u _.
        constructor; [now apply H_br|constructor].
      - apply outs_conditional; try assumption. intros Y. apply outs_bind_t. intro. apply outs_bind_t. intros [d t].
        apply outs_ret. constructor; [now apply H_image|constructor].
      - apply outs_conditional; try assumption. intros Y. eapply outs_pmap; [apply outs_true|]. intros u _.
        constructor; [now apply H_code|constructor].
      - eapply outs_pmap; [apply (outs_pmap _ _ (fun _ => True) good); [apply outs_true|]|].
        + intros u _. constructor; [apply H_text|constructor].
        + intros. now constructor.
      - apply outs_conditional; try assumption. apply outs_emphasis.
      - apply outs_conditional; try assumption. apply outs_strike.
      - unfold p_custom_inline. destruct (custom_inline cfg) eqn:E; [|apply outs_fail].
        intros s r a E1. eapply HC; [reflexivity|exact E1].
      - apply outs_conditional; try assumption. intros Y. eapply outs_pmap; [apply outs_true|]. intros u _.
        constructor; [apply H_text|constructor].
    Qed.
  End R.
  Lemma good_merge : forall ll, Forall (Forall good) ll -> goods (merge_consecutive_text_elements (concat ll)).
  Proof.
    intros ll H. split; [apply merge_merged_go|]. apply merge_keeps.
    - intro. constructor; [apply H_text|constructor].
    - now apply Forall_concat.
  Qed.
  Lemma outs_inline_many1_f : forall f, outs goods (inline_many1_f cfg f).
  Proof.
    induction f as [|f IH]; [intros s r a E; discriminate|]. cbn [inline_many1_f].
    eapply outs_pmap; [apply outs_many1, outs_inline, IH|]. intros ll [_ H]. now apply good_merge.
  Qed.
  Lemma outs_inline_many1 : outs goods (inline_many1 cfg).
  Proof. intros s r a E. exact (outs_inline_many1_f _ _ _ _ E). Qed.
  Lemma outs_inline_many0 : outs goods (inline_many0 cfg).
  Proof.
    intros s. revert s. intros s r a E. unfold inline_many0 in E.
    refine (outs_pmap _ _ (Forall (Forall good)) goods _ _ _ _ s r a E).
    - apply outs_many0, outs_inline, outs_inline_many1_f.
    - apply good_merge.
  Qed.

  (** ** Blocks *)
  Variable PB : block -> Prop.
  Definition goodB (b : block) : Prop := Forall PB (block_preorder b).
  Hypothesis HUB : block_user_code_keeps goodB cfg.
  Hypothesis H_bempty : PB BEmpty.
  Hypothesis H_paragraph : yields (b_heading_v2 cfg) \/ yields (b_paragraph cfg) -> forall c, goods c -> PB (BParagraph c).
  Hypothesis H_atx : yields (b_heading_v1 cfg) -> forall n c, (1 <= n <= 6)%N -> goods c -> PB (BHeading (Heading (Atx n) c)).
  Hypothesis H_setext : yields (b_heading_v2 cfg) -> forall l c, goods c -> PB (BHeading (Heading (Setext l) c)).
  Hypothesis H_break : yields (b_thematic_break cfg) -> PB BThematicBreak.
  Hypothesis H_quote : yields (b_blockquote cfg) -> forall bs, Forall goodB bs -> PB (BBlockQuote bs).
  Hypothesis H_list : yields (b_list cfg) -> forall k items, items <> [] ->
    (forall n, k = Ordered n -> (n <= u64_max)%N) -> PB (BList (MkList k items)).
  Hypothesis H_codeb : yields (b_code_block cfg) -> forall c, PB (BCodeBlock c).
  Hypothesis H_html : yields (b_html_block cfg) -> forall s, PB (BHtmlBlock s).
  Hypothesis H_def : yields (b_link_definition cfg) -> forall l d t, goods l -> PB (BDefinition (LinkDefinition l d t)).
  Hypothesis H_table : yields (b_table cfg) -> forall t, rectangular t -> Forall (Forall goods) (t_rows t) -> PB (BTable t).
  Hypothesis H_fndef : yields (b_footnote_definition cfg) -> forall l bs, PB (BFootnoteDefinition (FootnoteDefinition l bs)).
  Hypothesis H_alert : yields (b_github_alert cfg) -> forall t bs, PB (BGitHubAlert (GitHubAlert t bs)).

  Lemma outs_table_row : outs (fun row => row <> [] /\ Forall goods row) (p_table_row cfg).
  Proof.
    apply outs_terminated, outs_preceded, outs_delimited, outs_sep1.
    apply outs_bind_t. intro. apply outs_nested, outs_inline_many0.
  Qed.
  Lemma resize_len : forall n row, len (resize_row n row) = n.
  Proof. intros. unfold resize_row. rewrite app_length, repeat_length, firstn_length. lia. Qed.
  Lemma Forall_firstn : forall A (P : A -> Prop) n l, Forall P l -> Forall P (firstn n l).
  Proof. intros A P n. induction n; intros l H; [constructor|]. destruct H; constructor; [assumption|]. now apply IHn. Qed.
  Lemma resize_good : forall n row, Forall goods row -> Forall goods (resize_row n row).
  Proof.
    intros n row H. unfold resize_row. apply Forall_app. split; [now apply Forall_firstn|].
    apply Forall_forall. intros x Hx. apply repeat_spec in Hx as ->. split.
    - intros a s t b E. destruct a as [|? [|]]; discriminate.
    - constructor; [|constructor]. constructor; [apply H_text|constructor].
  Qed.
  Lemma outs_table : outs (fun t => rectangular t /\ Forall (Forall goods) (t_rows t)) (p_table cfg).
  Proof.
    eapply outs_bind; [apply outs_table_row|]. intros h [Hne Hh]. apply outs_bind_t. intros al.
    destruct (Nat.eqb_spec (len al) (len h)) as [El|]; cbn [negb]; [|apply outs_fail].
    eapply (outs_bind _ _ (Forall (fun row => len row = len h /\ Forall goods row))).
    - apply outs_many0. eapply outs_pmap; [apply outs_table_row|]. intros row [_ Hr].
      split; [apply resize_len|now apply resize_good].
    - intros rows Hr. apply outs_ret. split; [repeat split|].
      + discriminate.
      + cbn. intros ->. destruct h; [now elim Hne|discriminate].
      + cbn. constructor; [now symmetry|]. eapply Forall_impl; [|exact Hr]. cbn. intros a [Ha _]. now rewrite El.
      + cbn. constructor; [exact Hh|]. eapply Forall_impl; [|exact Hr]. now intros a [_ Ha].
  Qed.

  Section RB.
    Variable rec : parser (list block).
    Hypothesis Hrec : outs (Forall goodB) rec.

    Lemma outs_nested0 : forall c, outs (Forall goodB) (pmap (@concat _) (nested (many0 rec) c)).
    Proof. intro. eapply outs_pmap; [apply outs_nested, outs_many0, Hrec|]. intros. now apply Forall_concat. Qed.
    Lemma outs_nested1 : forall c, outs (Forall goodB) (pmap (@concat _) (nested (many1 rec) c)).
    Proof. intro. eapply outs_pmap; [apply outs_nested, outs_many1, Hrec|]. intros a [_ H]. now apply Forall_concat. Qed.
    Lemma goodB_flat : forall bs, Forall goodB bs -> Forall PB (flat_map block_preorder bs).
    Proof. induction 1; cbn; [constructor|]. apply Forall_app. now split. Qed.
    Lemma outs_blockquote : outs (Forall goodB) (p_blockquote rec).
    Proof. apply outs_bind_t. intro. apply outs_nested1. Qed.
    Lemma outs_alert : yields (b_github_alert cfg) -> outs (Forall goodB) (p_github_alert cfg rec).
    Proof.
      intros Y. apply outs_bind_t. intro. destruct (parse_alert_marker _ _) as [ty|]; [|apply outs_fail].
      apply outs_bind_t. intro ls. cbv zeta. eapply (outs_bind _ _ (Forall goodB)).
      - destruct (join _ _); [apply outs_ret; constructor|apply outs_nested1].
      - intros bs Hb. apply outs_ret. constructor; [|constructor]. constructor; [now apply H_alert|]. now apply goodB_flat.
    Qed.
    Definition kind_ok (k : list_kind) : Prop := forall n, k = Ordered n -> (n <= u64_max)%N.
    Lemma outs_list_marker : outs kind_ok p_list_marker.
    Proof.
      apply outs_alt. repeat apply Forall_cons1; try constructor.
      - eapply outs_pmap; [apply outs_terminated, outs_u64|]. intros v Hv n E. now injection E as <-.
      - eapply outs_pmap; [apply outs_true|]. intros v Hv n E. discriminate.
      - eapply outs_pmap; [apply outs_true|]. intros v Hv n E. discriminate.
      - eapply outs_pmap; [apply outs_true|]. intros v Hv n E. discriminate.
    Qed.
    Lemma outs_consumed : forall A (Q : A -> Prop) p, outs Q p -> outs (fun x => Q (fst x)) (consumed p).
    Proof.
      intros A Q p H s r a E. unfold consumed in E. destruct (p s) eqn:E1; try discriminate. injection E as <- <-.
      exact (H _ _ _ E1).
    Qed.
    Lemma outs_item_lines : outs (fun x => kind_ok (fst (fst x))) p_list_item_lines.
    Proof.
      eapply (outs_bind _ _ (fun x => kind_ok (fst (fst (fst x))))).
      - apply outs_alt. repeat apply Forall_cons1; try constructor.
        + eapply (outs_pmap _ _ (fun x => kind_ok (fst (fst x)))); [|now intros].
          eapply (outs_bind _ _ (fun x => kind_ok (fst x))); [apply outs_consumed, outs_preceded, outs_list_marker|].
          intros [k n] Hk. apply outs_or_else; [eapply outs_pmap; [apply outs_true|]; intros; exact Hk|].
          apply outs_bind_t. intros [x m]. apply outs_bind_t. intro. now apply outs_ret.
        + eapply (outs_bind _ _ (fun x => kind_ok (fst (fst x)))).
          * eapply (outs_bind _ _ (fun x => kind_ok (fst x))); [apply outs_consumed, outs_delimited, outs_list_marker|].
            intros [k n] Hk. apply outs_bind_t. intro. now apply outs_ret.
          * intros a Ha. eapply outs_pmap; [apply outs_true|]. intros; exact Ha.
      - intros [[[k n] t] f] Hk. apply outs_bind_t. intro. now apply outs_ret.
    Qed.
    Lemma outs_list_item : outs (fun x => kind_ok (fst x) /\ Forall goodB (li_blocks (snd x))) (p_list_item rec).
    Proof.
      eapply outs_bind; [apply outs_item_lines|]. intros [[k t] c] Hk. eapply outs_bind; [apply outs_nested0|].
      intros bs Hb. apply outs_ret. now split.
    Qed.
    Lemma items_flat : forall items, Forall (fun x : list_kind * list_item => kind_ok (fst x) /\ Forall goodB (li_blocks (snd x))) items ->
      Forall PB (flat_map (fun it => flat_map block_preorder (li_blocks it)) (map snd items)).
    Proof.
      induction 1 as [|[k1 i1] l [_ Hb] Hl IH]; [constructor|]. cbn [map snd flat_map]. apply Forall_app.
      split; [now apply goodB_flat|exact IH].
    Qed.
    Lemma outs_list : yields (b_list cfg) -> outs (fun l => goodB (BList l)) (p_list rec).
    Proof.
      intros Y. eapply outs_bind; [apply outs_many1, outs_list_item|]. intros items [_ Hi].
      destruct items as [|[k it] items]; [apply outs_fail|]. apply outs_ret. constructor.
      - apply H_list; [exact Y|discriminate|]. inversion Hi as [|? ? [Hk _]]; subst. exact Hk.
      - exact (items_flat _ Hi).
    Qed.
    Lemma outs_fndef : yields (b_footnote_definition cfg) -> outs (fun f => goodB (BFootnoteDefinition f)) (p_footnote_definition rec).
    Proof.
      intros Y. apply outs_bind_t. intros [l c]. eapply outs_bind; [apply outs_nested0|]. intros bs Hb. apply outs_ret.
      constructor; [now apply H_fndef|]. now apply goodB_flat.
    Qed.
    Lemma outs_paragraph : forall b, outs goods (p_paragraph cfg rec b).
    Proof. intro. apply outs_bind_t. intro. apply outs_bind_t. intro. apply outs_nested, outs_inline_many1. Qed.
    Lemma leaf : forall b, PB b -> block_preorder b = [b] -> goodB b.
    Proof. intros b H E. unfold goodB. rewrite E. now constructor. Qed.

    Lemma outs_block : outs (Forall goodB) (p_block cfg rec).
    Proof.
      destruct HUB as [HF HC]. repeat match goal with H : Forall _ (_ :: _) |- _ => inversion H; clear H; subst end.
      assert (E0 : Forall goodB [BEmpty]) by (constructor; [now apply leaf|constructor]).
      apply outs_preceded, outs_alt. repeat apply Forall_cons1; try constructor.
      - apply outs_conditional; try assumption. intros Y. eapply outs_pmap; [apply outs_true|]. intros c _.
        apply leaf; [now apply H_codeb|reflexivity].
      - apply outs_conditional; try assumption. intros Y.
        eapply (outs_pmap _ _ (fun h => goodB (BHeading h))); [|now intros].
        eapply outs_bind; [apply outs_many_1_n|]. intros pr Hpr. apply outs_bind_t. intro. apply outs_bind_t. intro.
        eapply outs_bind; [apply outs_nested, outs_inline_many0|]. intros c Hcc. apply outs_ret.
        apply leaf; [|reflexivity]. apply H_atx; [exact Y| |exact Hcc]. cbv beta in Hpr; lia.
      - apply outs_conditional; try assumption. intros Y. eapply outs_bind; [apply outs_paragraph|]. intros c Hcc.
        apply outs_bind_t. intros [l|]; apply outs_ret; (apply leaf; [|reflexivity]); [now apply H_setext|apply H_paragraph; [now left|exact Hcc]].
      - apply outs_conditional; try assumption. intros Y. eapply outs_pmap; [apply outs_true|]. intros c _.
        apply leaf; [now apply H_break|reflexivity].
      - apply outs_conditional_vec; [exact outs_alert|exact E0].
      - apply outs_conditional; try assumption. intros Y. eapply outs_pmap; [apply outs_blockquote|]. intros bs Hb.
        constructor; [now apply H_quote|now apply goodB_flat].
      - apply outs_conditional; try assumption. intros Y. eapply outs_pmap; [now apply outs_list|]. now intros.
      - apply outs_conditional; try assumption. intros Y. eapply outs_pmap; [apply outs_true|]. intros c _.
        apply leaf; [now apply H_html|reflexivity].
      - apply outs_conditional; try assumption. intros Y. eapply outs_pmap; [now apply outs_fndef|]. now intros.
      - apply outs_conditional; try assumption. intros Y.
        eapply (outs_pmap _ _ (fun h => goodB (BDefinition h))); [|now intros].
        eapply outs_bind; [apply outs_preceded, outs_link_label, outs_inline_many1|]. intros l Hl.
        do 5 (apply outs_bind_t; intro). apply outs_ret. apply leaf; [now apply H_def|reflexivity].
      - apply outs_conditional; try assumption. intros Y. eapply outs_pmap; [apply outs_table|]. intros t [Ht Hg].
        apply leaf; [now apply H_table|reflexivity].
      - unfold p_custom_block. destruct (custom_block cfg) eqn:E; [|apply outs_fail].
        intros s r a E1. eapply HC; [reflexivity|exact E1].
      - apply outs_conditional; try assumption. intros Y. eapply outs_pmap; [apply outs_paragraph|]. intros c Hcc.
        apply leaf; [apply H_paragraph; [now right|exact Hcc]|reflexivity].
    Qed.
  End RB.
  Lemma outs_block_f : forall f, outs (Forall goodB) (block_f cfg f).
  Proof. induction f as [|f IH]; [intros s r a E; discriminate|]. cbn [block_f]. now apply outs_block. Qed.
  Theorem parse_inv : forall s r d, parse_markdown cfg s = Ok r d -> Forall PB (doc_blocks d).
  Proof.
    intros s r d E. unfold parse_markdown in E.
    refine (outs_pmap _ _ (Forall (Forall goodB)) (fun d => Forall PB (doc_blocks d)) _ _ _ _ s r d E).
    - apply outs_terminated, outs_many0, outs_block_f.
    - intros ll H. unfold doc_blocks. cbn. apply Forall_concat in H.
      induction H; cbn; [constructor|]. apply Forall_app. now split.
  Qed.
End Inlines.
