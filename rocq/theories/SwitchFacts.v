(** Proof of C100: configurations that agree on what the source can make use of
    read it alike. *)
From Coq Require Import String Lia.
From Verif Require Import SpecParser Nom NomFacts ParserInline ParserInlineFacts ParserBlock ParserTotal SyntaxDoc SpecInline SpecBlock SpecSwitch ShapeFacts CharFacts PropBlockSyntax SpecInline SpecBlock.
Import ListNotations.
Open Scope list_scope.

(** ** Properties of strings that parts and joined lines inherit *)
Section Closed.
  Variable N : str -> Prop.
  Hypothesis N_nil : N [].
  Hypothesis N_l : forall a b, N (a ++ b) -> N a.
  Hypothesis N_r : forall a b, N (a ++ b) -> N b.
  Hypothesis N_nl : forall a b, N a -> N b -> N (a ++ c_nl :: b).
  Lemma n_c : forall c a, N (c :: a) -> N a.
  Proof. intros c a H. exact (N_r [c] a H). Qed.
  Lemma c_join : forall l, Forall N l -> N (join [c_nl] l).
  Proof. intros l H. induction H as [|x l Hx Hl IH]; [exact N_nil|]. destruct l; cbn [join]; [assumption|]. cbn [app]. now apply N_nl. Qed.
  Lemma c_line_end : forall m r, line_end m r -> N m -> N r.
  Proof. intros m r H HQ. destruct H; [now apply N_r in HQ|assumption]. Qed.
  Lemma c_plain_line : forall s v r, plain_line s v r -> N s -> N v /\ N r.
  Proof. intros s v r (m & -> & _ & _ & E) H. split; [now apply N_l in H|]. apply N_r in H. now apply c_line_end in E. Qed.
  Lemma c_text_line : forall s v r, text_line s v r -> N s -> N v /\ N r.
  Proof. intros s v r (m & -> & _ & _ & E & _) H. split; [now apply N_l in H|]. apply N_r in H. now apply c_line_end in E. Qed.
  Lemma c_strip : forall k s m, strip k s m -> N s -> N m.
  Proof. intros k s m (j & -> & _) H. now apply N_r in H. Qed.
  Lemma c_repeated : forall A (R : rule A) (P : A -> Prop), (forall s x r, R s x r -> N s -> P x /\ N r) ->
    forall s l r, repeated R s l r -> N s -> Forall P l /\ N r.
  Proof.
    intros A R P H s l r X. induction X as [s _|s a m l r X _ IH]; intros HQ; [split; [constructor|assumption]|].
    apply H in X as [X1 X2]; [|assumption]. destruct (IH X2). split; [now constructor|assumption].
  Qed.
  Lemma c_quote_line : forall s v r, quote_line s v r -> N s -> N v /\ N r.
  Proof. intros s v r (k & m & -> & _ & L) H. apply N_r, n_c in H. now apply c_plain_line in L. Qed.
  Lemma c_marker : forall s k r, marker_at s k r -> N s -> N r.
  Proof. intros s k r H HQ. destruct H; [now apply N_r, n_c in HQ|now apply n_c in HQ]. Qed.
  Lemma c_task : forall s t r, task_at s t r -> N s -> N r.
  Proof. intros s t r H HQ. destruct H; [now do 3 apply n_c in HQ|now apply N_r in HQ]. Qed.
  Lemma c_start : forall s k n t v r, item_start s (k, n, t, v) r -> N s -> N v /\ N r.
  Proof.
    intros s k n t v r H HQ. apply first_in in H as (R & I & H). destruct I as [<-|[<-|[<-|[]]]].
    - inversion H as [k0 s0 kind w m r0 _ M _ E]; subst. apply N_r in HQ. apply c_marker in M; [|assumption]. apply N_r in M. apply c_line_end in E; [|assumption]. now split.
    - inversion H as [k0 s0 kind j t0 m1 m r0 _ M _ T E]; subst. apply N_r in HQ. apply c_marker in M; [|assumption]. apply N_r in M. apply c_task in T; [|assumption]. apply c_line_end in E; [|assumption]. now split.
    - inversion H as [k0 s0 kind j m1 t0 m v0 r0 _ M _ _ T L]; subst. apply N_r in HQ. apply c_marker in M; [|assumption]. apply N_r in M.
      assert (N m) by (destruct T as [(x & _ & T)|(_ & -> & _)]; [apply c_task in T; [now apply n_c in T|assumption]|assumption]).
      now apply c_plain_line in L.
  Qed.
  Lemma blanks_end : forall s bl m, repeated blank_line s bl m -> s = concat bl ++ m /\ (bl <> [] -> m <> [] -> exists w, concat bl = w ++ [c_nl]).
  Proof.
    intros s bl m H. induction H as [s _|s a m l r X _ [E IH]]; [split; [reflexivity|congruence]|].
    destruct X as (-> & w & m0 & Ew & _ & L). subst m. split; [cbn [concat]; now rewrite app_assoc|]. intros _ Nr.
    destruct l as [|b l].
    - cbn [concat app] in *. rewrite app_nil_r. destruct L as [e r0 [-> | ->]|].
      + exists w. rewrite app_assoc in Ew. now apply app_inv_tail in Ew.
      + exists (w ++ [13%N]). rewrite <- app_assoc. rewrite app_assoc in Ew. now apply app_inv_tail in Ew.
      + congruence.
    - destruct IH as (w' & E'); [discriminate|exact Nr|]. exists (a ++ w'). change (concat (a :: b :: l)) with (a ++ concat (b :: l)). rewrite E'. apply app_assoc.
  Qed.
  Lemma c_item_line : forall k n s v r, item_line k n s v r -> N s -> N v /\ N r.
  Proof.
    intros k n s v r (_ & _ & H) HQ. apply first_in in H as (R & I & H). destruct I as [<-|[<-|[]]].
    - destruct H as (m & S' & L). apply c_strip in S'; [|assumption]. now apply c_text_line in L.
    - destruct H as (bl & m & v' & Nb & B & L & ->). apply blanks_end in B as [E B]. subst s.
      destruct B as (w & E); [exact Nb| |].
      { destruct L as (m' & -> & Nv & _). destruct (rep n c_sp); [|discriminate]. destruct v'; [congruence|discriminate]. }
      rewrite E in *. pose proof (N_r _ _ HQ) as H1. apply N_r in H1. apply c_text_line in L as [L1 L2]; [|assumption]. split; [|assumption].
      apply N_l, N_l in HQ. rewrite <- app_assoc. now apply N_nl.
  Qed.
  Lemma c_item : forall s x r, item_at s x r -> N s -> N (snd (snd x)) /\ N r.
  Proof.
    intros s x r [s' k n t v m ls r' S' L] HQ. apply c_start in S' as [S1 S2]; [|assumption].
    apply (c_repeated _ _ N (c_item_line k n)) in L as [L1 L2]; [|assumption]. cbn [snd]. split; [apply c_join; now constructor|assumption].
  Qed.
  Lemma c_footnote_line : forall s v r, footnote_line s v r -> N s -> N v /\ N r.
  Proof. intros s v r (m & -> & L) H. apply N_r in H. now apply c_text_line in L. Qed.
  (** the texts whose blocks are read in turn *)
  Definition inner_texts (h : shape) : Prop :=
    match h with
    | HAlert _ t | HQuote t | HFootnote _ t => N t
    | HList _ items => Forall (fun x => N (snd x)) items
    | _ => True
    end.
  Lemma c_shape : forall cfg s h r, first_of (block_rules cfg) s h r -> N s -> inner_texts h.
  Proof.
    intros cfg m h r H HQ. apply first_in in H as (R & I & H). unfold block_rules in I. cbn [In] in I.
    repeat (destruct I as [<-|I]; [unfold on in H; try match type of H with _ /\ _ => destruct H as [_ H] end|]); try contradiction; try (inversion H; subst; exact Logic.I).
    - inversion H as [? ls ? N0 RP|? ? ? F]; subst; [exact Logic.I|]. inversion F; subst. exact Logic.I.
    - inversion H as [? l ls ? u name ty RP _ _ AL _]; subst. cbn [inner_texts].
      apply (c_repeated _ _ N c_quote_line) in RP as [L1 L2]; [|assumption]. inversion L1; subst. now apply c_join.
    - inversion H as [? ls ? _ RP _]; subst. cbn [inner_texts].
      apply (c_repeated _ _ N c_quote_line) in RP as [L1 L2]; [|assumption]. now apply c_join.
    - inversion H as [? k x items ? RP]; subst. cbn [inner_texts].
      apply (c_repeated _ _ (fun x => N (snd (snd x))) c_item) in RP as [L1 L2]; [|assumption]. inversion L1 as [|? ? L3 L4]; subst. cbn [snd] in L3.
      apply Forall_cons; [assumption|now apply Forall_map].
    - inversion H as [k label m0 m1 v m2 ls ? _ _ _ S' L RP]; subst. apply N_r, N_r, N_r, N_r in HQ. apply c_strip in S'; [|assumption]. apply c_text_line in L as [L1 L2]; [|assumption].
      apply (c_repeated _ _ N c_footnote_line) in RP as [L3 L4]; [|assumption]. cbn [inner_texts]. apply c_join. now constructor.
  Qed.
End Closed.

(** no four spaces in a row *)
Definition n4 (s : str) : Prop := forall a b, s <> a ++ rep 4 c_sp ++ b.
Lemma n4_nil : n4 [].
Proof. intros a b E. destruct a; discriminate E. Qed.
Lemma n4_l : forall a b, n4 (a ++ b) -> n4 a.
Proof. intros a b H x y ->. apply (H x (y ++ b)). now rewrite <- !app_assoc. Qed.
Lemma n4_r : forall a b, n4 (a ++ b) -> n4 b.
Proof. intros a b H x y ->. apply (H (a ++ x) y). now rewrite <- !app_assoc. Qed.
Lemma n4_nl : forall a b, n4 a -> n4 b -> n4 (a ++ c_nl :: b).
Proof.
  intros a b Ha Hb x y E. revert x E. induction a as [|c a IH]; intros x E.
  - destruct x as [|d x]; [discriminate E|]. cbn [app] in E. injection E as _ E. exact (Hb _ _ E).
  - destruct x as [|d x].
    + destruct a as [|c1 [|c2 [|c3 a]]]; try discriminate E. injection E as -> -> -> -> E. apply (Ha [] a). reflexivity.
    + cbn [app] in E. injection E as -> E. apply (IH (fun p q K => Ha (d :: p) q (f_equal (cons d) K)) x E).
Qed.

(** ** Two configurations *)
Section Two.
  Variable Q : char -> Prop.
  Hypothesis Qnl : Q c_nl.
  Notation QS := (Forall Q).
  Definition sw {B A} (b b' : behavior B) (G : str -> Prop) (R : rule A) : Prop :=
    b' = b \/ forall s, G s -> ~ applies R s.
  Record linked (c c' : config) : Prop := {
    l_entities : html_entities c' = html_entities c \/ forall s e v r, QS s -> ~ entity_at e s v r;
    l_punct : punct_table c' = punct_table c;
    l_upper : upper_table c' = upper_table c;
    l_custom_block : custom_block c' = custom_block c;
    l_custom_inline : custom_inline c' = custom_inline c;
    l_text : i_text c' = i_text c;
    l_paragraph : b_paragraph c' = b_paragraph c;
    l_setext : b_heading_v2 c' = b_heading_v2 c;
    l_newline : i_hard_newline c' = i_hard_newline c;
    l_heading : (allow_no_space_in_headings c' = allow_no_space_in_headings c /\ b_heading_v1 c' = b_heading_v1 c) \/ forall bare s, QS s -> ~ applies (r_atx bare) s;
    l_quote : sw (b_blockquote c) (b_blockquote c') QS r_quote;
    l_alert : sw (b_github_alert c) (b_github_alert c') QS (r_alert (upper_text c));
    l_thematic : sw (b_thematic_break c) (b_thematic_break c') QS r_break_line;
    l_list : sw (b_list c) (b_list c') QS item_at;
    l_code_block : sw (b_code_block c) (b_code_block c') (fun s => QS s /\ n4 s) r_code_block;
    l_html : sw (b_html_block c) (b_html_block c') QS r_html;
    l_footnote : sw (b_footnote_definition c) (b_footnote_definition c') QS r_footnote_def;
    l_definition : sw (b_link_definition c) (b_link_definition c') QS r_definition;
    l_table : sw (b_table c) (b_table c') QS r_table;
    l_autolink : sw (i_autolink c) (i_autolink c') QS r_autolink;
    l_link : sw (i_link c) (i_link c') QS r_link;
    l_footnote_ref : sw (i_footnote_reference c) (i_footnote_reference c') QS r_footnote;
    l_reference : sw (i_reference_link c) (i_reference_link c') QS r_reference;
    l_image : sw (i_image c) (i_image c') QS r_image;
    l_code_span : sw (i_code_span c) (i_code_span c') QS r_code;
    l_emphasis : sw (i_emphasis c) (i_emphasis c') QS (r_emphasis (punct_table c));
    l_strike : sw (i_strikethrough c) (i_strikethrough c') QS r_strike
  }.
  Lemma sw_sym : forall B A (b b' : behavior B) G (R : rule A), sw b b' G R -> sw b' b G R.
  Proof. intros B A b b' G R [H|H]; [left; congruence|now right]. Qed.
  Lemma linked_sym : forall c c', linked c c' -> linked c' c.
  Proof.
    intros c c' H. destruct H. constructor; try congruence; try (apply sw_sym; assumption).
    - destruct l_entities0 as [A|A]; [left; congruence|now right].
    - destruct l_heading0 as [[A B]|A]; [left; split; congruence|now right].
    - apply sw_sym. unfold upper_text in *. now rewrite l_upper0.
    - apply sw_sym. now rewrite l_punct0.
  Qed.

  Definition alike {A} (G : str -> Prop) (R R' : rule A) : Prop := forall s p r, G s -> (R s p r <-> R' s p r).
  Lemma alike_refl : forall A G (R : rule A), alike G R R.
  Proof. intros A G R s p r _. reflexivity. Qed.
  Lemma alike_less : forall A (G G' : str -> Prop) (R R' : rule A), (forall s, G' s -> G s) -> alike G R R' -> alike G' R R'.
  Proof. intros A G G' R R' H X s p r HG. apply X. now apply H. Qed.
  Lemma alike_applies : forall A G (R R' : rule A), alike G R R' -> forall s, G s -> (applies R s <-> applies R' s).
  Proof. intros A G R R' H s HQ. split; intros (p & r & X); exists p, r; now apply (H s). Qed.
  Lemma alike_on : forall A B G (b b' : behavior B) (R R' : rule A), b' = b -> alike G R R' -> alike G (on b R) (on b' R').
  Proof. intros A B G b b' R R' -> H s p r HQ. unfold on. now rewrite (H s p r HQ). Qed.
  Lemma alike_sw : forall A B G (b b' : behavior B) (R : rule A), sw b b' G R -> alike G (on b R) (on b' R).
  Proof.
    intros A B G b b' R [-> | H]; [apply alike_refl|]. intros s p r HG. unfold on. split; intros [_ X]; exfalso; apply (H s HG); now exists p, r.
  Qed.
  Lemma alike_first : forall A G (l l' : list (rule A)), Forall2 (alike G) l l' -> alike G (first_of l) (first_of l').
  Proof.
    intros A G l l' H. induction H as [|R R' l l' X _ IH]; [apply alike_refl|]. intros s p r HQ. cbn [first_of].
    rewrite (X s p r HQ), (alike_applies _ _ _ _ X s HQ), (IH s p r HQ). reflexivity.
  Qed.

  (** *** Inlines *)
  Lemma elements_alike : forall c c', linked c c' -> Forall2 (alike QS) (element_rules c) (element_rules c').
  Proof.
    intros c c' H. unfold element_rules. rewrite (l_punct _ _ H), (l_newline _ _ H).
    repeat (apply Forall2_cons; [first [apply alike_refl|apply alike_sw; apply H]|]). constructor.
  Qed.
  Lemma entity_same : forall c c', linked c c' -> forall s v r, QS s -> (entity_at (html_entities c) s v r <-> entity_at (html_entities c') s v r).
  Proof. intros c c' H s v r HQ. destruct (l_entities _ _ H) as [-> | E]; [reflexivity|]. split; intro X; exfalso; eapply E; eassumption. Qed.
  Lemma special_same : forall c c', linked c c' -> forall s, QS s -> (special c s <-> special c' s).
  Proof.
    intros c c' H s HQ. unfold special.
    assert (EE : (exists v r, entity_at (html_entities c) s v r) <-> exists v r, entity_at (html_entities c') s v r)
      by (split; intros (v & r & X); exists v, r; now apply (entity_same c c' H)).
    pose proof (elements_alike c c' H) as F. revert F. generalize (element_rules c) (element_rules c').
    intros l l' F. assert (X : Exists (fun R => applies R s) l <-> Exists (fun R => applies R s) l'); [|tauto].
    induction F as [|R R' l l' X _ IH]; [reflexivity|]. rewrite !Exists_cons, IH, (alike_applies _ _ _ _ X s HQ). reflexivity.
  Qed.
  Lemma run_same : forall c c', linked c c' -> forall s v r, run_of c s v r -> QS s -> run_of c' s v r.
  Proof.
    intros c c' H s v r X. induction X as [s K|x s t r K _ IH]; intros HQ.
    - apply run_end. destruct K as [K|K]; [now left|right]. now apply (special_same c c' H).
    - apply run_char; [intro K'; apply K; now apply (special_same c c' H)|]. apply IH. now inversion HQ.
  Qed.
  Lemma chunk_same : forall c c', linked c c' -> forall s v r, chunk c s v r -> QS s -> chunk c' s v r.
  Proof.
    intros c c' H s v r X HQ. unfold chunk in *. destruct X as [X|[[X Y]|(H1 & H2 & H3 & H4)]]; [now left|right; left; split; [assumption|now apply (entity_same c c' H)]|]. right. right.
    apply (run_same c c' H) in H4; [|assumption]. repeat split; try assumption. intros v' r' Y. apply (H2 v' r'). now apply (entity_same c c' H).
  Qed.
  Lemma chunks_same : forall c c', linked c c' -> forall s v r, chunks c s v r -> QS s -> chunks c' s v r.
  Proof.
    intros c c' H s v r X. induction X as [s K|s v m l r K _ IH]; intros HQ.
    - apply chunks_end. intros v r Y. apply (K v r). now apply (chunk_same c' c (linked_sym _ _ H)).
    - eapply chunks_more; [eapply chunk_same; eassumption|]. apply IH. eapply (q_chunk_rest Q c); eassumption.
  Qed.
  Lemma text_same : forall c c', linked c c' -> forall s v r, r_text c s v r -> QS s -> r_text c' s v r.
  Proof. intros c c' H s v r [s' l r' N K] HQ. constructor; [assumption|]. now apply (chunks_same c c' H). Qed.
  Lemma custom_same : forall c c', linked c c' -> forall s v r, r_custom c s v r -> r_custom c' s v r.
  Proof. intros c c' H s v r X. inversion X as [p s' l r' E Y]; subst. apply (R_custom c' p); [|assumption]. now rewrite (l_custom_inline _ _ H). Qed.
  Lemma inline_alike : forall c c', linked c c' -> alike QS (first_of (inline_rules c)) (first_of (inline_rules c')).
  Proof.
    intros c c' H. apply alike_first. unfold inline_rules. apply Forall2_app; [now apply elements_alike|].
    apply Forall2_cons; [|apply Forall2_cons; [|constructor]].
    - intros s p r _. split; [now apply custom_same|apply custom_same; now apply linked_sym].
    - apply alike_on; [apply H|]. intros s p r HQ. split; intro X; [now apply (text_same c c')|apply (text_same c' c); try assumption; now apply linked_sym].
  Qed.
  Lemma sw_same : forall A B (b b' : behavior B) (G : str -> Prop) (R : rule A) s p r, sw b b' G R -> G s -> R s p r -> b' = b.
  Proof. intros A B b b' G R s p r [H|H] HG X; [exact H|]. exfalso. apply (H s HG). now exists p, r. Qed.
  Lemma behavior_same : forall c c', linked c c' -> forall s p r, first_of (inline_rules c) s p r -> QS s -> behavior_of c' p = behavior_of c p.
  Proof.
    intros c c' H s p r X HQ. apply first_in in X as (R & I & X). unfold inline_rules, element_rules in I. cbn [app In] in I.
    destruct H.
    repeat (destruct I as [<-|I]; [unfold on in X; try match type of X with _ /\ _ => destruct X as [_ X] end|]); try contradiction;
      pose proof X as Y; inversion X; subst; cbn [behavior_of]; try assumption; try reflexivity; eapply sw_same; eassumption.
  Qed.
  Lemma inline_same : forall c c', linked c c' -> custom_ok c ->
    (forall p i, builds c p i -> piece_texts Q p -> builds c' p i) /\
    (forall p o, yields c p o -> piece_texts Q p -> behavior_of c' p = behavior_of c p -> yields c' p o) /\
    (forall s l, pieces c s l -> QS s -> pieces c' s l) /\
    (forall s l, reads c s l -> QS s -> reads c' s l).
  Proof.
    intros c c' L Hc. apply inline_mut; intros; try (constructor; auto; fail); cbn [piece_texts] in *.
    - destruct H3 as [A1 A2]. constructor; auto.
    - destruct H1 as [A1 A2]. constructor; auto.
    - rewrite <- H2. apply (Yields c'). auto.
    - pose proof (q_piece Q c Hc _ _ _ H H4) as [T T']. pose proof (behavior_same c c' L _ _ _ H H4) as E.
      econstructor; [apply (inline_alike c c' L); eassumption|auto|auto].
    - econstructor; eauto.
  Qed.
  Lemma reads_same : forall c c', linked c c' -> custom_ok c -> forall s l, reads c s l -> QS s -> reads c' s l.
  Proof. intros c c' L Hc. apply (inline_same c c' L Hc). Qed.

  (** *** Blocks *)
  Section Blocks.
  Variables c c' : config.
  Hypothesis L : linked c c'.
  Hypothesis Hc : custom_ok c.
  Hypothesis Ht : i_text c <> Ignore.
  Hypothesis Hp : b_paragraph c <> Ignore.
  Definition four (s : str) : Prop := b_code_block c' = b_code_block c \/ n4 s.
  Definition G (s : str) : Prop := QS s /\ four s.
  Lemma four_nil : four [].
  Proof. right. apply n4_nil. Qed.
  Lemma four_l : forall a b, four (a ++ b) -> four a.
  Proof. intros a b [H|H]; [now left|right; now apply n4_l in H]. Qed.
  Lemma four_r : forall a b, four (a ++ b) -> four b.
  Proof. intros a b [H|H]; [now left|right; now apply n4_r in H]. Qed.
  Lemma four_nl : forall a b, four a -> four b -> four (a ++ c_nl :: b).
  Proof. intros a b [H|H] [H'|H']; [now left..|]. right. now apply n4_nl. Qed.
  Lemma QG : forall s, G s -> QS s.
  Proof. now intros s [H _]. Qed.
  Lemma gsw : forall A B (b b' : behavior B) (R : rule A), sw b b' QS R -> alike G (on b R) (on b' R).
  Proof. intros A B b b' R H. apply (alike_less _ QS G); [exact QG|]. now apply alike_sw. Qed.
  Lemma code_alike : forall (R : rule shape), (forall s p r, R s p r -> r_code_block s p r) -> alike G (on (b_code_block c) R) (on (b_code_block c') R).
  Proof.
    intros R HR s p r [HQ [-> | F]]; [reflexivity|]. destruct (l_code_block _ _ L) as [-> | E]; [reflexivity|].
    unfold on. split; intros [_ X]; exfalso; apply (E s); auto; exists p, r; now apply HR.
  Qed.
  Lemma atx_alike : alike G (on (b_heading_v1 c) (atx c)) (on (b_heading_v1 c') (atx c')).
  Proof.
    unfold atx. destruct (l_heading _ _ L) as [[-> ->]|E]; [apply alike_refl|].
    intros s p r [HQ _]. unfold on. split; intros [_ X]; exfalso; eapply (E _ s HQ); exists p, r; exact X.
  Qed.
  Lemma upper_same : upper_text c' = upper_text c.
  Proof. unfold upper_text. now rewrite (l_upper _ _ L). Qed.
  Lemma list_alike : alike G (on (b_list c) r_list) (on (b_list c') r_list).
  Proof.
    apply gsw. destruct (l_list _ _ L) as [E|E]; [now left|]. right. intros s HQ (p & r & X). apply (E s HQ). inversion X as [s' k x items r' RP]; subst.
    inversion RP; subst. eexists _, _. eassumption.
  Qed.
  Lemma custom_block_alike : alike G (r_custom_block c) (r_custom_block c').
  Proof.
    intros s p r _. split; intros X; inversion X as [q s' l r' E Y]; subst; (apply (R_custom_block _ q); [|assumption]).
    - now rewrite (l_custom_block _ _ L).
    - now rewrite <- (l_custom_block _ _ L).
  Qed.
  Lemma starter_same : forall s, G s -> (starter c s <-> starter c' s).
  Proof.
    intros s HG. unfold starter. rewrite (l_setext _ _ L). rewrite !Exists_cons.
    rewrite (alike_applies _ _ _ _ atx_alike s HG), (alike_applies _ _ _ _ custom_block_alike s HG).
    rewrite (alike_applies _ _ _ _ (code_alike r_fenced R_fence) s HG).
    rewrite (alike_applies _ _ _ _ (gsw _ _ _ _ _ (l_thematic _ _ L)) s HG).
    rewrite (alike_applies _ _ _ _ (gsw _ _ _ _ _ (l_quote _ _ L)) s HG).
    rewrite (alike_applies _ _ _ _ (gsw _ _ _ _ _ (l_list _ _ L)) s HG).
    rewrite (alike_applies _ _ _ _ (gsw _ _ _ _ _ (l_html _ _ L)) s HG).
    rewrite (alike_applies _ _ _ _ (gsw _ _ _ _ _ (l_definition _ _ L)) s HG).
    rewrite (alike_applies _ _ _ _ (gsw _ _ _ _ _ (l_footnote _ _ L)) s HG).
    rewrite (alike_applies _ _ _ _ (gsw _ _ _ _ _ (l_table _ _ L)) s HG).
    reflexivity.
  Qed.
  Lemma paragraph_alike : alike G (paragraph_line c) (paragraph_line c').
  Proof. intros s v r HG. unfold paragraph_line. now rewrite (starter_same s HG). Qed.
  Lemma g_paragraph_line : forall s v r, paragraph_line c s v r -> G s -> G r.
  Proof.
    intros s v r (H & m & S' & T) [HQ F]. split; [eapply (q_paragraph_line Q c); [|exact HQ]; split; [exact H|eauto]|].
    apply (c_strip _ four_r) in S'; [|exact F]. now apply (c_text_line _ four_l four_r) in T.
  Qed.
  Lemma alike_repeated : forall A (R R' : rule A), alike G R R' -> (forall s x r, R s x r -> G s -> G r) -> alike G (repeated R) (repeated R').
  Proof.
    intros A R R' H HR s l r HQ. split; intros X.
    - revert HQ. induction X as [s N|s a m l r X _ IH]; intros HQ; [apply rep_stop; intro Y; apply N; now apply (alike_applies _ _ _ _ H s HQ)|].
      eapply rep_more; [apply H; eassumption|]. apply IH. now apply HR in X.
    - revert HQ. induction X as [s N|s a m l r X _ IH]; intros HQ; [apply rep_stop; intro Y; apply N; now apply (alike_applies _ _ _ _ H s HQ)|].
      apply H in X; [|assumption]. eapply rep_more; [eassumption|]. apply IH. now apply HR in X.
  Qed.
  Lemma lines_alike : alike G (r_lines c) (r_lines c').
  Proof.
    intros s h r HQ. assert (H := alike_repeated _ _ _ paragraph_alike g_paragraph_line).
    split; intros RL; inversion RL as [s' ls m l r' N RP U|s' ls r' N RP U]; subst s' r'.
    - eapply R_setext; [assumption|apply H; eassumption|assumption].
    - eapply R_paragraph; [assumption|apply H; eassumption|assumption].
    - eapply R_setext; [assumption|apply H; eassumption|assumption].
    - eapply R_paragraph; [assumption|apply H; eassumption|assumption].
  Qed.
  Lemma blocks_alike : alike G (first_of (block_rules c)) (first_of (block_rules c')).
  Proof.
    apply alike_first. unfold block_rules. rewrite (l_paragraph _ _ L), upper_same.
    repeat (apply Forall2_cons; [first [apply alike_refl|apply custom_block_alike|apply atx_alike|apply list_alike|apply code_alike; trivial|apply alike_on; [apply L|apply lines_alike]|apply gsw; apply L]|]). constructor.
  Qed.
  Lemma block_behavior_same : forall s h r, first_of (block_rules c) s h r -> G s -> block_behavior c' h = block_behavior c h.
  Proof.
    intros s h r X HG. pose proof (QG s HG) as HQ. apply first_in in X as (R & I & X). unfold block_rules in I. cbn [In] in I.
    repeat (destruct I as [<-|I]; [unfold on in X; try match type of X with _ /\ _ => destruct X as [XN X] end|]); try contradiction.
    - assert (E : b_code_block c' = b_code_block c). { destruct HG as [_ [F|F]]; [exact F|]. eapply sw_same; [apply L|split; eassumption|exact X]. }
      inversion X as [|? ? ? F]; subst; [exact E|]. inversion F; subst. exact E.
    - inversion X; subst. cbn [block_behavior]. destruct (l_heading _ _ L) as [[_ E]|E]; [exact E|]. exfalso. eapply E; [exact HQ|]. eexists _, _. exact X.
    - inversion X; subst; cbn [block_behavior]; apply L.
    - assert (E := sw_same _ _ _ _ _ _ _ _ _ (l_thematic _ _ L) HQ X). inversion X; subst. exact E.
    - assert (E := sw_same _ _ _ _ _ _ _ _ _ (l_alert _ _ L) HQ X). inversion X; subst. cbn [block_behavior]. now rewrite E.
    - assert (E := sw_same _ _ _ _ _ _ _ _ _ (l_quote _ _ L) HQ X). inversion X; subst. exact E.
    - inversion X as [s' k x items r' RP]; subst. inversion RP as [|? ? ? ? ? IA]; subst. exact (sw_same _ _ _ _ _ _ _ _ _ (l_list _ _ L) HQ IA).
    - assert (E := sw_same _ _ _ _ _ _ _ _ _ (l_html _ _ L) HQ X). inversion X; subst. exact E.
    - assert (E := sw_same _ _ _ _ _ _ _ _ _ (l_footnote _ _ L) HQ X). inversion X; subst. exact E.
    - assert (E := sw_same _ _ _ _ _ _ _ _ _ (l_definition _ _ L) HQ X). inversion X; subst. exact E.
    - assert (E := sw_same _ _ _ _ _ _ _ _ _ (l_table _ _ L) HQ X). inversion X; subst. exact E.
    - inversion X; subst. reflexivity.
    - inversion X; subst. apply L.
  Qed.
  Lemma row_same : forall n l x, row_cells c n l x -> Forall QS l -> row_cells c' n l x.
  Proof.
    intros n l x H. induction H as [l|n x _ IH|n t u i l x T R _ IH]; intros HQ; [constructor|constructor; now apply IH|].
    inversion HQ; subst. econstructor; [eassumption|apply (reads_same c c' L Hc); [assumption|now apply (q_trimmed Q) in T]|now apply IH].
  Qed.
  Lemma block_same :
    (forall h b, makes c h b -> shape_texts Q h -> inner_texts four h -> makes c' h b) /\
    (forall l l', item_blocks c l l' -> Forall (fun x => QS (snd x)) l -> Forall (fun x => four (snd x)) l -> item_blocks c' l l') /\
    (forall h o, makes_all c h o -> makes_all c h o /\ (shape_texts Q h -> inner_texts four h -> block_behavior c' h = block_behavior c h -> makes_all c' h o)) /\
    (forall s bs, blocks c s bs -> G s -> blocks c' s bs).
  Proof.
    assert (RS := reads_same c c' L Hc).
    apply block_mut; intros; cbn [shape_texts inner_texts] in *; try (constructor; auto; fail); try (constructor; apply RS; assumption).
    - constructor. apply H0. now split.
    - constructor. apply H0. now split.
    - constructor. apply H0. now split.
    - destruct H1 as [A1 A2]. constructor; [now apply row_same|]. clear H A1. induction H0 as [|x y xs ys X _ IH]; [constructor|]. inversion A2; subst. constructor; [now apply row_same|now apply IH].
    - inversion H3; inversion H4; subst. constructor; auto. apply H0. now split.
    - split; [now constructor|]. intros T I E. rewrite <- E. apply (Makes c'). auto.
    - split; [constructor|]. intros T I E. constructor.
    - destruct H2 as [M H2].
      assert (P : block_ c s = Ok r o) by (apply (C70_one_block c Hc Ht Hp); exists bl, m, h; now split).
      apply (eats_block_ c Hc) in P as (u & -> & _).
      apply (q_blanks Q) in H as HQ; [|apply H5]. pose proof (proj1 (blanks_end _ _ _ H)) as E.
      assert (F : four m) by (destruct H5 as [_ F]; rewrite E in F; now apply four_r in F).
      pose proof (q_shape Q Qnl c Hc _ _ _ H0 HQ) as (T & _ & T').
      eapply Blocks_more; [eassumption|apply blocks_alike; [now split|eassumption]| |].
      + apply H2; [assumption|now apply (c_shape four four_nil four_l four_r four_nl) in H0|now apply block_behavior_same in H0].
      + apply H4. split; [assumption|]. destruct H5 as [_ K]. now apply four_r in K.
  Qed.
End Blocks.
End Two.

(** ** What constructs need *)
Definition needs {A} (R : rule A) (cs : str) : Prop := forall t p r, R t p r -> exists x, In x cs /\ In x t.
Lemma in_lit : forall (x : char) a b, In x (a ++ x :: b).
Proof. intros. apply in_or_app. right. now left. Qed.
Ltac here := repeat match goal with
  | |- In ?x (?x :: _) => left; reflexivity
  | |- In _ (_ :: _) => right
  | |- In ?x (_ ++ _) => apply in_or_app; first [left; solve [here]|right]
  end; try assumption.
Local Ltac find x := exists x; split; [cbn; tauto|].
Lemma in_l : forall (x : char) a b, In x a -> In x (a ++ b). Proof. intros. apply in_or_app. now left. Qed.
Lemma in_r : forall (x : char) a b, In x b -> In x (a ++ b). Proof. intros. apply in_or_app. now right. Qed.

Lemma rep_in : forall n (x : char), 1 <= n -> In x (rep n x).
Proof. intros [|n] x H; [lia|]. now left. Qed.
Lemma need_atx : forall bare, needs (r_atx bare) (lit "#").
Proof. intros bare t p r X. inversion X; subst. find (ch "#"). apply in_l, rep_in. lia. Qed.
Lemma need_quote_lines : forall t l r, l <> [] -> repeated quote_line t l r -> In (ch ">") t.
Proof. intros t l r N X. inversion X as [|? ? ? ? ? (k & m & -> & _)]; subst; [congruence|]. apply in_lit. Qed.
Lemma need_quote : needs r_quote (lit ">").
Proof. intros t p r X. inversion X; subst. find (ch ">"). eapply need_quote_lines; eassumption. Qed.
Lemma need_alert : forall u, needs (r_alert u) (lit ">").
Proof. intros u t p r X. inversion X; subst. find (ch ">"). eapply need_quote_lines; [|eassumption]. discriminate. Qed.
Lemma need_thematic : needs r_break_line (lit "-_*").
Proof. intros t p r X. inversion X as [k c n w m r0 _ N I]; subst. exists c. split; [exact I|]. apply in_r, in_l, rep_in. lia. Qed.
Lemma digit_in : forall c v, digit 10 c v -> In c (lit "0123456789").
Proof.
  intros c v [H E]. assert (K : N.to_nat v < 10) by lia. revert E. generalize (N.to_nat v) K. clear. intros n K E.
  do 10 (destruct n as [|n]; [destruct E as [E|E]; injection E as <-; cbn; tauto|]). lia.
Qed.
Lemma numeral_in : forall ds n, numeral 10 ds n -> exists x, In x (lit "0123456789") /\ In x ds.
Proof.
  intros ds n H. destruct H as [c v D|ds n c v H D]; exists c; (split; [now apply digit_in in D|]); [now left|]. apply in_r. now left.
Qed.
Lemma digits_more : forall x, In x (lit "0123456789") -> In x (lit "*+-0123456789").
Proof. intros x H. do 3 right. exact H. Qed.
Lemma need_marker : forall s k r, marker_at s k r -> (exists x, In x (lit "*+-0123456789") /\ In x s) /\ (exists x, In x (lit "*+-.)") /\ In x s).
Proof.
  intros s k r H. destruct H as [ds n c r N _ I|c b r I].
  - split.
    + apply numeral_in in N as (x & I1 & I2). exists x. split; [now apply digits_more|now apply in_l].
    + exists c. split; [do 3 right; exact I|apply in_lit].
  - split; exists c; (split; [|now left]); destruct I as [E|[E|[E|[]]]]; injection E as <- _; cbn; tauto.
Qed.
Lemma need_start : forall s x r, item_start s x r -> (exists x, In x (lit "*+-0123456789") /\ In x s) /\ (exists x, In x (lit "*+-.)") /\ In x s).
Proof.
  intros s x r H. apply first_in in H as (R & I & H).
  assert (K : exists k s' kind m, s = rep k c_sp ++ s' /\ marker_at s' kind m).
  { destruct I as [<-|[<-|[<-|[]]]]; inversion H; subst; eexists _, _, _, _; (split; [reflexivity|eassumption]). }
  destruct K as (k & s' & kind & m & -> & M). apply need_marker in M as [(a & A1 & A2) (b & B1 & B2)].
  split; [exists a|exists b]; (split; [assumption|now apply in_r]).
Qed.
Lemma need_item : needs item_at (lit "*+-0123456789") /\ needs item_at (lit "*+-.)").
Proof. split; intros t p r X; inversion X as [s k n t' v m ls r' IS RP]; subst; apply need_start in IS; apply IS. Qed.
Lemma need_fenced : needs r_fenced (lit "`~").
Proof. intros t p r X. inversion X as [k f n m info m1 ls m2 r0 _ I N]; subst. exists f. split; [exact I|]. apply in_r, in_l, rep_in. lia. Qed.
Lemma need_code_block : forall t p r, r_code_block t p r -> (exists x, In x (c_tab :: lit "`~") /\ In x t) \/ ~ n4 t.
Proof.
  intros t p r X. destruct X as [s ls r N RP|s h r F].
  - inversion RP as [|? ? ? ? ? (m & [-> | ->] & _)]; subst; [congruence| |].
    + right. intro K. exact (K [] m eq_refl).
    + left. exists c_tab. split; now left.
  - left. apply need_fenced in F as (x & I & J). exists x. split; [now right|exact J].
Qed.
Lemma need_tag : forall s v r, html_at s v r -> In (ch "<") s.
Proof.
  intros s v r H. unfold html_at in H. apply first_in in H as (R & I & H). cbn [In] in I.
  repeat (destruct I as [<-|I]; [|]); try contradiction.
  - destruct H as (t & x & body & e & -> & -> & _). now left.
  - destruct H as (body & -> & -> & _). now left.
  - destruct H as (body & -> & -> & _). now left.
  - destruct H as (c & _ & body & -> & -> & _). now left.
  - destruct H as (body & -> & -> & _). now left.
  - destruct H as (o & t & x & body & e & m & -> & -> & [<-|[<-|[]]] & _); now left.
  - destruct H as (t & x & body & e & _ & _ & [(m & n & m1 & l & m2 & w & c & -> & _)|(m & n & w & -> & _)] & _); now left.
Qed.
Lemma need_html : needs r_html (lit "<").
Proof. intros t p r X. inversion X as [k m v r0 _ H]; subst. find (ch "<"). apply in_r. eapply need_tag; eassumption. Qed.
Lemma need_footnote_def : forall cs, In cs [lit "["; lit "^"; lit "]"; lit ":"] -> needs r_footnote_def cs.
Proof.
  intros cs I t p r X. inversion X; subst.
  destruct I as [<-|[<-|[<-|[<-|[]]]]]; eexists; (split; [left; reflexivity|]); apply in_r.
  - now left.
  - right. now left.
  - apply in_r, in_r. now left.
  - apply in_r, in_r. right. now left.
Qed.
Lemma need_bracket : forall s t r, bracket_at s t r -> In (ch "[") s /\ In (ch "]") s /\ forall x, In x r -> In x s.
Proof.
  intros s t r (raw & -> & _). split; [now left|]. split; [apply in_r, in_r; now left|]. intros x H. apply in_r, in_r, in_r. exact H.
Qed.
Lemma need_definition : forall cs, In cs [lit "["; lit "]"; lit ":"] -> needs r_definition cs.
Proof.
  intros cs I t p r X. inversion X as [k s label w m d m1 t0 m2 r0 _ B]; subst. apply need_bracket in B as (B1 & B2 & B3).
  destruct I as [<-|[<-|[<-|[]]]]; eexists; (split; [left; reflexivity|]); apply in_r; try assumption. apply B3. now left.
Qed.
Lemma need_cells : forall A (R : rule A) s l r, cells R s l r -> (forall s x r, R s x r -> forall y, In y r -> In y s) ->
  (exists s' x r', R s' x r' /\ forall y, In y s' -> In y s) /\ forall y, In y r -> In y s.
Proof.
  intros A R s l r H HR. induction H as [s x m m' r C E L|s x m l r C _ IH].
  - split; [exists s, x, m; auto|]. intros y J. apply (HR _ _ _ C). assert (In y m') by (destruct L; [now apply in_r|destruct J]). destruct E as [-> | ->]; [assumption|now right].
  - split; [exists s, x, (ch "|" :: m); auto|]. intros y J. apply (HR _ _ _ C). right. now apply IH.
Qed.
Lemma align_rest : forall s x r, align_at s x r -> In (ch "-") s /\ forall y, In y r -> In y s.
Proof.
  intros s x r (w & n & w' & N & _ & _ & H).
  assert (K : exists u, s = w ++ u ++ rep n (ch "-") ++ w' ++ r \/ s = w ++ rep n (ch "-") ++ u ++ w' ++ r \/ s = w ++ lit ":" ++ rep n (ch "-") ++ u ++ w' ++ r).
  { destruct H as [[_ H]|[[_ H]|[[_ H]|[_ H]]]]; [exists (lit ":"); auto|exists (lit ":"); auto|exists (lit ":"); auto|exists []; auto]. }
  destruct K as (u & [-> | [-> | ->]]); split.
  1,3,5: repeat first [apply in_l; solve [apply rep_in; lia]|apply in_r].
  all: intros y J; repeat apply in_r; assumption.
Qed.
Lemma cell_rest : forall s x r, cell_at s x r -> forall y, In y r -> In y s.
Proof.
  intros s x r [_ H] y J. induction H as [s|s t r _ IH|c s t r _ _ _ _ IH]; [assumption|right; right; auto|right; auto].
Qed.
Lemma need_table : forall cs, In cs [lit "|"; lit "-"] -> needs r_table cs.
Proof.
  intros cs I t p r X. inversion X as [s header m1 al m2 rows r0 (k & m & -> & _ & C) (k' & m' & E & _ & C') _ _]; subst.
  destruct I as [<-|[<-|[]]]; eexists; (split; [left; reflexivity|]); [apply in_lit|]. apply in_r. right.
  apply need_cells in C as [_ C]; [|exact cell_rest]. apply C. apply in_r. right.
  apply need_cells in C' as [(s' & x & r' & H & K) _]; [|intros ? ? ? Y; now apply align_rest in Y]. apply K. now apply align_rest in H.
Qed.
Lemma need_autolink : forall cs, In cs [lit "<"; lit ">"; lit ":@"] -> needs r_autolink cs.
Proof.
  intros cs I t p r X. inversion X as [s u r0 (-> & U)]; subst. destruct I as [<-|[<-|[<-|[]]]].
  - find (ch "<"). now left.
  - find (ch ">"). apply in_r, in_r. now left.
  - destruct U as [(c & a & b & -> & _)|(a & b & -> & _)].
    + find (ch ":"). right. right. apply in_l. cbn [app]. apply in_lit.
    + find (ch "@"). apply in_r, in_l, in_lit.
Qed.
Lemma dest_rest : forall s d r, destination_at s d r -> forall y, In y r -> In y s.
Proof. intros s d r H y J. destruct H; [now apply in_r, in_r, in_r|now apply in_r|destruct J]. Qed.
Lemma title_rest : forall s d r, title_at s d r -> forall y, In y r -> In y s.
Proof. intros s d r (o & c & raw & _ & _ & ->) y J. right. apply in_r. now right. Qed.
Lemma need_tail : forall s x r, link_tail_at s x r -> In (ch "(") s /\ In (ch ")") s.
Proof.
  intros s x r (w1 & s1 & s2 & s3 & w3 & -> & _ & D & T & -> & _). split; [now left|]. apply in_r, in_r. apply (dest_rest _ _ _ D).
  assert (J : In (ch ")") (w3 ++ lit ")" ++ r)) by (apply in_r; now left).
  destruct T as [[_ <-]|(w2 & m & t & _ & -> & _ & T)]; [exact J|]. apply in_r. now apply (title_rest _ _ _ T).
Qed.
Lemma need_link : forall cs, In cs [lit "["; lit "]"; lit "("; lit ")"] -> needs r_link cs.
Proof.
  intros cs I t p r X. inversion X as [s text m d t0 r0 B T]; subst. apply need_bracket in B as (B1 & B2 & B3). apply need_tail in T as [T1 T2].
  destruct I as [<-|[<-|[<-|[<-|[]]]]]; eexists; (split; [left; reflexivity|]); auto.
Qed.
Lemma need_footnote : forall cs, In cs [lit "["; lit "^"; lit "]"] -> needs r_footnote cs.
Proof.
  intros cs I t p r X. inversion X; subst. destruct I as [<-|[<-|[<-|[]]]]; eexists; (split; [left; reflexivity|]).
  - now left.
  - right. now left.
  - apply in_r, in_r. now left.
Qed.
Lemma need_reference : forall cs, In cs [lit "["; lit "]"] -> needs r_reference cs.
Proof.
  intros cs I t p r X. assert (K : exists a b, bracket_at t a b) by (inversion X; subst; eauto). destruct K as (a & b & B). apply need_bracket in B as (B1 & B2 & B3).
  destruct I as [<-|[<-|[]]]; eexists; (split; [left; reflexivity|]); auto.
Qed.
Lemma need_image : forall cs, In cs [lit "!"; lit "["; lit "]"; lit "("; lit ")"] -> needs r_image cs.
Proof.
  intros cs I t p r X. inversion X as [a d t0 m r0 _ T]; subst. apply need_tail in T as [T1 T2].
  destruct I as [<-|[<-|[<-|[<-|[<-|[]]]]]]; eexists; (split; [left; reflexivity|]).
  - now left.
  - right. now left.
  - apply in_r, in_r. now left.
  - now apply in_r, in_r, in_r.
  - now apply in_r, in_r, in_r.
Qed.
Lemma need_code : needs r_code (lit "`").
Proof.
  intros t p r X. inversion X as [n raw s c r0 (-> & N & _) _]; subst. find (ch "`"). apply in_l. unfold ticks. apply (rep_in n 96%N). lia.
Qed.
Lemma need_emphasis : forall pt, needs (r_emphasis pt) (lit "*_").
Proof.
  intros pt t p r X. inversion X as [m n s text r0 I N (m' & -> & _) _]; subst. exists m. split; [exact I|]. apply in_l, rep_in. lia.
Qed.
Lemma need_strike : needs r_strike (lit "~").
Proof. intros t p r X. inversion X; subst. find (ch "~"). now left. Qed.

(** ** Together *)
Section Source.
  Variable s : str.
  Definition Qs (x : char) : Prop := In x s \/ x = c_nl.
  Lemma lacks_not : forall cs t, lacks s cs -> ~ In c_nl cs -> Forall Qs t -> ~ exists x, In x cs /\ In x t.
  Proof.
    intros cs t H N HQ (x & I & J). apply (proj1 (Forall_forall _ _) HQ) in J as [J| ->]; [exact (H x I J)|exact (N I)].
  Qed.
  Lemma sw_of : forall B A needed (b b' : behavior B) (R : rule A), agree s needed b b' ->
    (forall cs, In cs needed -> needs R cs /\ ~ In c_nl cs) -> sw b b' (Forall Qs) R.
  Proof.
    intros B A needed b b' R [H|(cs & I & H)] HR; [now left|]. right. intros t HQ (p & r & X). apply HR in I as [I N].
    apply (lacks_not cs t H N HQ). exact (I _ _ _ X).
  Qed.
  Lemma single : forall A (R : rule A) cs, needs R cs -> ~ In c_nl cs -> forall x, In x [cs] -> needs R x /\ ~ In c_nl x.
  Proof. intros A R cs H N x [<-|[]]. now split. Qed.
  Lemma several : forall A (R : rule A) l, (forall cs, In cs l -> needs R cs) -> Forall (fun cs => ~ In c_nl cs) l -> forall x, In x l -> needs R x /\ ~ In c_nl x.
  Proof. intros A R l H N x I. split; [now apply H|]. now apply (proj1 (Forall_forall _ _) N). Qed.
  Local Ltac nonl := cbn; intuition discriminate.
  Lemma agree_linked : forall c c', agree_on s c c' -> linked Qs c c'.
  Proof.
    intros c c' H. destruct H. constructor; try assumption.
    - destruct ag_entities as [E|E]; [now left|right]. intros t e v r HQ X.
      assert (K : In (ch "&") t /\ In (ch ";") t).
      { inversion X; subst; (split; [now left|]); [apply in_r, in_r; now left|apply in_r, in_r; now left|]. apply in_r. right. apply in_r. now left. }
      destruct K as [K1 K2]. destruct E as [E|E]; (eapply (lacks_not _ t E); [nonl|exact HQ|eexists; split; [left; reflexivity|assumption]]).
    - destruct ag_no_space as [E|E], ag_heading as [E'|(cs & [<-|[]] & E')]; [left; now split|right..];
        intros bare t HQ (p & r & X); apply need_atx in X; revert X; (apply lacks_not; [assumption|nonl|assumption]).
    - eapply sw_of; [exact ag_quote|]. apply single; [apply need_quote|nonl].
    - eapply sw_of; [exact ag_alert|]. apply single; [apply need_alert|nonl].
    - eapply sw_of; [exact ag_thematic|]. apply single; [apply need_thematic|nonl].
    - eapply sw_of; [exact ag_list|]. intros cs [<-|[<-|[]]]; (split; [apply need_item|nonl]).
    - destruct ag_code_block as [E|[E F]]; [now left|]. right. intros t [HQ N] (p & r & X). apply need_code_block in X as [X|X]; [|exact (X N)].
      revert X. apply lacks_not; [assumption|nonl|assumption].
    - eapply sw_of; [exact ag_html|]. apply single; [apply need_html|nonl].
    - eapply sw_of; [exact ag_footnote|]. apply several; [apply need_footnote_def|]. repeat apply Forall_cons; [nonl..|apply Forall_nil].
    - eapply sw_of; [exact ag_definition|]. apply several; [apply need_definition|]. repeat apply Forall_cons; [nonl..|apply Forall_nil].
    - eapply sw_of; [exact ag_table|]. apply several; [apply need_table|]. repeat apply Forall_cons; [nonl..|apply Forall_nil].
    - eapply sw_of; [exact ag_autolink|]. apply several; [apply need_autolink|]. repeat apply Forall_cons; [nonl..|apply Forall_nil].
    - eapply sw_of; [exact ag_link|]. apply several; [apply need_link|]. repeat apply Forall_cons; [nonl..|apply Forall_nil].
    - eapply sw_of; [exact ag_footnote_ref|]. apply several; [apply need_footnote|]. repeat apply Forall_cons; [nonl..|apply Forall_nil].
    - eapply sw_of; [exact ag_reference|]. apply several; [apply need_reference|]. repeat apply Forall_cons; [nonl..|apply Forall_nil].
    - eapply sw_of; [exact ag_image|]. apply several; [apply need_image|]. repeat apply Forall_cons; [nonl..|apply Forall_nil].
    - eapply sw_of; [exact ag_code_span|]. apply single; [apply need_code|nonl].
    - eapply sw_of; [exact ag_emphasis|]. apply single; [apply need_emphasis|nonl].
    - eapply sw_of; [exact ag_strike|]. apply single; [apply need_strike|nonl].
  Qed.
  Lemma switches : forall c c', custom_ok c -> i_text c <> Ignore -> b_paragraph c <> Ignore -> agree_on s c c' ->
    parse_markdown c' s = parse_markdown c s.
  Proof.
    intros c c' Hc Ht Hp H. destruct (parse_total c Hc Ht Hp s) as [d E]. rewrite E.
    assert (Hc' : custom_ok c') by (destruct H; unfold custom_ok in *; now rewrite ag_custom_inline, ag_custom_block).
    apply parse_markdown_blocks; [exact Hc'|destruct H; congruence|destruct H; congruence|].
    apply parse_markdown_blocks in E; try assumption.
    apply (block_same Qs (or_intror eq_refl) c c' (agree_linked c c' H) Hc Ht Hp); [exact E|].
    split; [apply Forall_forall; intros x J; now left|]. destruct (ag_code_block _ _ _ H) as [K|[_ K]]; [now left|right; exact K].
  Qed.
End Source.
