(** Exactness of the block parser (C70). *)
From Coq Require Import String Lia.
From Verif Require Import SpecParser Nom NomFacts ParserLeaf ParserTotal ParserCode SpecInline SyntaxFacts SyntaxInline SyntaxInline2 ParserBlock ParserBlockFacts ManyFacts SpecBlock SyntaxLines SyntaxBlock SyntaxBlock2 SyntaxHtml SyntaxDef SyntaxTable.
Import ListNotations.
Open Scope list_scope.
Local Notation len := (@List.length _).

Lemma exact_ext : forall A (p q : parser A) R, (forall s, q s = p s) -> exact p R -> exact q R.
Proof. intros A p q R E [H1 H2]. split; [intro s; now rewrite E|]. intros s r a. now rewrite E. Qed.
Lemma decides_alt : forall A (ps : list (parser A)) Ps, Forall2 decides ps Ps -> ps <> [] -> decides (alt ps) (fun s => Exists (fun P : Prop => P) (map (fun P => P s) Ps)).
Proof.
  intros A ps Ps H. induction H as [|p P ps Ps H1 H IH]; intro N; [now elim N|]. destruct ps as [|q ps].
  - inversion H; subst. cbn [alt map]. eapply decides_iff; [exact H1|]. intro s. split; [intro; now constructor|]. intro X. inversion X as [? ? Y|? ? Y]; [exact Y|inversion Y].
  - assert (X : decides (or_else p (alt (q :: ps))) (fun s => Exists (fun P : Prop => P) (map (fun P => P s) (P :: Ps)))).
    { eapply decides_iff; [apply decides_or; [exact H1|apply IH; discriminate]|]. intro s. cbn [map]. rewrite Exists_cons. reflexivity. }
    exact X.
Qed.
Lemma exact_line_start : forall (p : parser unit) P, decides p P -> exact (peek (not_ p)) (fun s (_ : unit) r => r = s /\ ~ P s).
Proof.
  intros p P [H1 H2]. split.
  - intro s. unfold peek, not_. destruct (p s) eqn:E; try discriminate. now elim (H1 s).
  - intros s r a. rewrite <- H2. unfold peek, not_. destruct (p s) as [r' b| |] eqn:E.
    + split; [discriminate|]. intros [_ N]. elim N. eauto.
    + destruct a. split; [intro Q; injection Q as <-; split; [reflexivity|]; intros (? & ? & ?); discriminate|now intros [-> _]].
    + now elim (H1 s).
Qed.

(** ** Blank lines *)
Lemma blank_space : forall w m, all is_space w -> blank (w ++ m) -> blank m.
Proof.
  intros w m H. induction H as [|c w Hc H IH]; intro B; [exact B|]. apply IH. apply space_is in Hc. cbn [app] in B. inversion B; subst; auto; destruct Hc; discriminate.
Qed.
Lemma blank_end : forall m r, line_end m r -> blank m -> blank r.
Proof.
  intros m r [e q [->| ->]|] B; [| |exact B]; cbn in B; inversion B as [|c s [->| ->]|?|?]; subst; auto; discriminate.
Qed.
Lemma blank_applies : forall s, blank s -> exists w m r, s = w ++ m /\ all is_space w /\ line_end m r.
Proof.
  induction 1 as [|c s Hc B (w & m & r & -> & Hw & L)|s B _|s B _].
  - exists [], [], []. repeat split; constructor.
  - exists (c :: w), m, r. split; [reflexivity|]. split; [constructor; [now apply space_is|exact Hw]|exact L].
  - exists [], (10%N :: s), s. split; [reflexivity|]. split; [constructor|]. apply (end_eol [10%N]). now left.
  - exists [], (13%N :: 10%N :: s), s. split; [reflexivity|]. split; [constructor|]. apply (end_eol [13%N; 10%N]). now right.
Qed.
Lemma blank_repeated : forall s bl m, blank s -> ~ repeated blank_line s bl m.
Proof.
  intros s bl m B H. induction H as [s N|s v m bl r (E & w & q & -> & Hw & L) H IH].
  - apply N. apply blank_line_ex. apply blank_applies in B as (w & q & r & -> & Hw & L). exists w, r. eauto.
  - apply IH. eapply blank_end; [exact L|]. eapply blank_space; eauto.
Qed.
Definition end_of_blank : rule str := fun s v r => exists w m, s = w ++ m /\ all is_space w /\ m = v ++ r /\ line_end m r.
Lemma exact_end_of_blank : exact (preceded space0 eof_or_eol) end_of_blank.
Proof.
  eapply exact_iff; [eapply exact_preceded; [ex|apply exact_eof_or_eol]|]. intros s v r. cbv beta. unfold end_of_blank. split.
  - intros (w & m & (-> & Hw & _) & E & L). exists w, m. auto.
  - intros (w & m & -> & Hw & E & L). exists w, m. split; [|auto]. split; [reflexivity|]. split; [exact Hw|eapply blank_stop, L].
Qed.
Lemma end_blank_iff : forall s r, (exists v, end_of_blank s v r) <-> exists v, blank_line s v r.
Proof.
  intros s r. split.
  - intros (v & w & m & -> & Hw & -> & L). exists (w ++ v). split; [now rewrite app_assoc|]. eauto.
  - intros (v & E & w & m & -> & Hw & L). apply line_end_iff in L as K. destruct K as [(e & _ & ->)|[-> ->]]; [exists e|exists []]; exists w; eexists; eauto.
Qed.
Lemma ends_repeated : forall s m, (exists l, repeated end_of_blank s l m) <-> exists l, repeated blank_line s l m.
Proof.
  intros s m. split; intros [l H]; induction H as [s N|s a m l r X Y [l' IH]].
  - exists []. apply rep_stop. intros (v & r & X). destruct (proj2 (end_blank_iff s r)) as [v' X']; [eauto|]. apply N. now exists v', r.
  - destruct (proj1 (end_blank_iff s m)) as [v' X']; [eauto|]. exists (v' :: l'). econstructor; eassumption.
  - exists []. apply rep_stop. intros (v & r & X). destruct (proj1 (end_blank_iff s r)) as [v' X']; [eauto|]. apply N. now exists v', r.
  - destruct (proj2 (end_blank_iff s m)) as [v' X']; [eauto|]. exists (v' :: l'). econstructor; eassumption.
Qed.
Lemma exact_after_blanks : forall A (p : parser A) R, exact p R ->
  exact (preceded many_empty_lines0 p) (fun s a r => exists bl m, repeated blank_line s bl m /\ R m a r).
Proof.
  intros A p R H. eapply exact_iff; [eapply exact_preceded; [|exact H]; unfold many_empty_lines0; apply exact_repeated; [apply exact_end_of_blank|eats]|].
  intros s a r. cbv beta. split; intros (l & m & X & Y); [destruct (proj1 (ends_repeated s m)) as [bl Z]|destruct (proj2 (ends_repeated s m)) as [bl Z]]; eauto.
Qed.

(** ** Lines of a paragraph *)
Definition line_stop (starter : str -> Prop) : rule str := fun s v r => ~ starter s /\ exists m, strip 3 s m /\ rest_text m v r.
Definition line_full (starter : str -> Prop) : rule str := fun s v r => ~ starter s /\ exists m, strip 3 s m /\ text_line m v r.
Lemma full_stop : forall P s v r, line_full P s v r <-> exists m, line_stop P s v m /\ line_end m r.
Proof.
  intros P s v r. unfold line_full, line_stop. split.
  - intros (N & m & S1 & T). apply text_line_rest in T as (m' & T & L). eauto 8.
  - intros (m' & (N & m & S1 & T) & L). split; [exact N|]. exists m. split; [exact S1|]. apply text_line_rest. eauto.
Qed.
Lemma line_stop_lt : forall P s v r, line_stop P s v r -> len r < len s.
Proof. intros P s v r (_ & m & (j & -> & _) & -> & N & _). destruct v; [now elim N|]. lenlia. Qed.
Lemma line_stop_end : forall P s v r, line_stop P s v r -> exists r', line_end r r'.
Proof. intros P s v r (_ & m & _ & T). eapply rest_text_end, T. Qed.
Lemma line_stop_nil : forall P v r, ~ line_stop P [] v r.
Proof. intros P v r H. apply line_stop_lt in H. cbn in H. lia. Qed.
Lemma lines_repeated : forall P s a m l m2 r, line_stop P s a m ->
  many_of (fun s v r => exists e m, (is_eol e /\ s = e ++ m) /\ line_stop P m v r) m l m2 -> line_end m2 r -> repeated (line_full P) s (a :: l) r.
Proof.
  intros P s a m l m2 r H M L. revert s a H. induction M as [m N|m b m' l q (e & m1 & (He & ->) & X) Lt M IH]; intros s a H.
  - eapply rep_more; [apply full_stop; eauto|]. apply rep_stop. intros (v & r' & F). apply full_stop in F as (m3 & F & _). destruct L as [e q He|]; [|now apply line_stop_nil in F].
    apply N. exists v, m3, e, q. auto.
  - eapply rep_more; [apply full_stop; exists (e ++ m1); split; [exact H|now constructor]|]. now apply IH.
Qed.
Lemma repeated_lines : forall P s a l r, repeated (line_full P) s (a :: l) r -> exists m m2, line_stop P s a m /\
  many_of (fun s v r => exists e m, (is_eol e /\ s = e ++ m) /\ line_stop P m v r) m l m2 /\ line_end m2 r.
Proof.
  intros P s a l. revert s a. induction l as [|b l IH]; intros s a r H; inversion H as [|? ? q ? ? F R]; subst; apply full_stop in F as (m & F & L).
  - apply repeated_nil in R as [N ->]. exists m, m. split; [exact F|]. split; [|exact L]. apply many_stop. intros (v & r' & e & m1 & (He & ->) & X). apply N.
    apply line_end_fun with (r := m1) in L; [|now constructor]. subst q. destruct (line_stop_end _ _ _ _ X) as [r2 L2]. exists v, r2. apply full_stop. eauto.
  - apply IH in R as (m1 & m2 & X & M & L2). exists m, m2. split; [exact F|]. split; [|exact L2]. destruct L as [e q He|].
    + refine (many_step _ _ b _ _ _ _ _ M); [eauto|]. apply line_stop_lt in X. lenlia.
    + now apply line_stop_nil in X.
Qed.
Lemma exact_sep0 : forall A B (sep : parser B) (p : parser A) Rs R, exact sep Rs -> exact p R -> eats false sep -> eats false p ->
  exact (separated_list0 sep p) (fun s l r => (exists a m l', R s a m /\ many_of (fun s a r => exists x m, Rs s x m /\ R m a r) m l' r /\ l = a :: l') \/ (~ applies R s /\ l = [] /\ r = s)).
Proof.
  intros A B sep p Rs R Hs Hp Es Ep.
  assert (X : exact (many0 (preceded sep p)) (many_of (fun s a r => exists x m, Rs s x m /\ R m a r))) by (apply exact_many0; [now apply exact_preceded|eats]).
  assert (E : forall s, separated_list0 sep p s = match p s with Oof => Oof | Err => Ok s [] | Ok r a => pmap (cons a) (many0 (preceded sep p)) r end).
  { intro s. unfold separated_list0. destruct (p s); try reflexivity. unfold pmap, bind. rewrite sep_go_many. reflexivity. }
  split.
  - intro s. rewrite E. destruct (p s) as [r a| |] eqn:Eq; [|discriminate|now elim (proj1 Hp s)]. unfold pmap, bind, ret. destruct (many0 _ r) eqn:Em; try discriminate. now elim (proj1 X r).
  - intros s r l. rewrite E. destruct (p s) as [m a| |] eqn:Eq; [| |now elim (proj1 Hp s)].
    + apply (exact_inv _ _ Hp) in Eq. rewrite (proj2 (exact_pmap (cons a) _ _ X) m r l). split.
      * intros (l' & M & ->). left. exists a, m, l'. auto.
      * intros [(a' & m' & l' & R' & M & ->)|(N & _)]; [|elim N; now exists a, m]. destruct (exact_fun _ _ Hp _ _ _ _ _ Eq R') as [<- <-]. eauto.
    + pose proof (proj1 (exact_err _ _ Hp s) Eq) as N. split.
      * intro Q. injection Q as <- <-. right. auto.
      * intros [(a & m & l' & R' & _)|(_ & -> & ->)]; [elim N; eauto|reflexivity].
Qed.
Lemma exact_sep0_lines : forall p P, exact p (line_stop P) -> eats true p ->
  exact (line_terminated (separated_list0 line_ending p)) (fun s ls r => (ls = [] /\ ~ applies (line_stop P) s /\ line_end s r) \/ (ls <> [] /\ repeated (line_full P) s ls r)).
Proof.
  intros p P H E. eapply exact_iff; [eapply exact_lt, exact_sep0; [apply exact_line_ending|exact H|eats|now apply eats_weaken in E]|]. intros s ls r. cbv beta. split.
  - intros (m & [(a & m1 & l & F & M & ->)|(N & -> & ->)] & L); [right|left; auto]. split; [discriminate|]. eapply lines_repeated; eauto.
  - intros [(-> & N & L)|(N & R)]; [exists s; auto|]. destruct ls as [|a l]; [now elim N|]. apply repeated_lines in R as (m & m2 & F & M & L). exists m2. split; [|exact L]. left. exists a, m, l. auto.
Qed.

Scheme makes_ind' := Induction for makes Sort Prop
  with item_blocks_ind' := Induction for item_blocks Sort Prop
  with makes_all_ind' := Induction for makes_all Sort Prop
  with blocks_ind' := Induction for blocks Sort Prop.
Combined Scheme blocks_mut from makes_ind', item_blocks_ind', makes_all_ind', blocks_ind'.

(** ** Contents *)
Section Doc.
  Variable cfg : config.
  Hypothesis Hcustom : custom_ok cfg.
  Hypothesis Htext : i_text cfg <> Ignore.
  Hypothesis Hpar : b_paragraph cfg <> Ignore.
  Let rec := block_ cfg.
  Definition RB (x : str) (bs : list block) : Prop := exists r l, many0 rec x = Ok r l /\ bs = concat l.
  Lemma rec_block_safe : safe rec. Proof. apply block_safe, Hcustom. Qed.
  Lemma rec_block_eats : eats true rec. Proof. apply eats_block_, Hcustom. Qed.
  Lemma RB_total : forall x, exists bs, RB x bs.
  Proof. intro x. destruct (many0_ok _ rec rec_block_eats rec_block_safe x) as (r & l & E & _). exists (concat l), r, l. auto. Qed.
  Lemma RB_fun : forall x b b', RB x b -> RB x b' -> b = b'.
  Proof. intros x b b' (r & l & E & ->) (r' & l' & E' & ->). congruence. Qed.
  Lemma many0_block_safe : safe (many0 rec).
  Proof. intros s E. destruct (many0_ok _ rec rec_block_eats rec_block_safe s) as (r & l & X & _). congruence. Qed.
  Lemma many1_block_safe : safe (many1 rec).
  Proof. intros s. unfold many1, bind, pmap, ret. destruct (rec s) as [r a| |] eqn:E; [|discriminate|now elim (rec_block_safe s)]. unfold bind. destruct (many0 rec r) eqn:E'; try discriminate. now elim (many0_block_safe r). Qed.
  Lemma block_blank : forall s, blank s -> rec s = Err.
  Proof.
    intros s B. unfold rec. rewrite block_unfold by exact Hcustom. unfold p_block. destruct (preceded _ _ s) as [r a| |] eqn:E; [exfalso|reflexivity|].
    - unfold preceded, bind in E. destruct (many_empty_lines0 s) as [m l| |] eqn:El; try discriminate.
      assert (X : repeated end_of_blank s l m) by (refine (exact_inv _ _ (exact_repeated _ _ _ exact_end_of_blank _) _ _ _ El); eats).
      destruct (proj1 (ends_repeated s m)) as [bl Y]; [eauto|]. now apply blank_repeated in Y.
    - exfalso. revert E. pose proof (rec_block_safe s) as S1. unfold rec in S1. rewrite block_unfold in S1 by exact Hcustom. exact S1.
  Qed.
  Lemma many1_nonblank : forall x, (exists r l, many1 rec x = Ok r l) <-> ~ blank x.
  Proof.
    intro x. split.
    - intros (r & l & E) B. apply block_blank in B. unfold many1, bind in E. rewrite B in E. discriminate.
    - intro N. unfold many1, bind. destruct (rec x) as [r a| |] eqn:E; [|now apply block_err in E|now elim (rec_block_safe x)].
      destruct (many0_ok _ rec rec_block_eats rec_block_safe r) as (r' & l & E' & _). unfold pmap, bind, ret. rewrite E'. eauto.
  Qed.
  Lemma many1_many0 : forall x r l, many1 rec x = Ok r l -> many0 rec x = Ok r l.
  Proof.
    intros x r l E. pose proof (exact_graph _ rec rec_block_safe) as G.
    pose proof (exact_many0 _ _ G (eats_weaken _ _ _ rec_block_eats)) as G0. pose proof (exact_many1 _ _ _ G rec_block_eats) as G1.
    apply (exact_ok _ _ G0). apply (exact_inv _ _ G1) in E. apply E.
  Qed.
  Lemma exact_nested0 : forall x, exact (pmap (@concat _) (nested (many0 rec) x)) (fun s bs r => r = s /\ RB x bs).
  Proof.
    intro x. eapply exact_iff; [eapply exact_pmap, exact_nested_any, many0_block_safe|]. intros s bs r. cbv beta. unfold RB. split.
    - intros (l & (-> & r' & E) & ->). split; [reflexivity|]. eauto.
    - intros (-> & r' & l & E & ->). eauto.
  Qed.
  Lemma exact_nested1 : forall x, exact (pmap (@concat _) (nested (many1 rec) x)) (fun s bs r => r = s /\ ~ blank x /\ RB x bs).
  Proof.
    intro x. eapply exact_iff; [eapply exact_pmap, exact_nested_any, many1_block_safe|]. intros s bs r. cbv beta. unfold RB. split.
    - intros (l & (-> & r' & E) & ->). split; [reflexivity|]. split; [apply many1_nonblank; eauto|]. apply many1_many0 in E. eauto.
    - intros (-> & N & r' & l & E & ->). apply many1_nonblank in N as (r2 & l2 & E2). pose proof (many1_many0 _ _ _ E2) as E3. rewrite E in E3. injection E3 as <- <-. eauto.
  Qed.

  (** ** One block *)
  Definition item_of (x : option task_state * str) (i : list_item) : Prop := exists bs, RB (snd x) bs /\ i = ListItem (fst x) bs.
  Inductive makes_by : shape -> block -> Prop :=
  | MB_code : forall c, makes_by (HCode c) (BCodeBlock c)
  | MB_heading : forall k t l, reads cfg t l -> makes_by (HHeading k t) (BHeading (Heading k l))
  | MB_text : forall t l, reads cfg t l -> makes_by (HText t) (BParagraph l)
  | MB_break : makes_by HBreak BThematicBreak
  | MB_alert : forall ty t bs, RB t bs -> makes_by (HAlert ty t) (BGitHubAlert (GitHubAlert ty bs))
  | MB_quote : forall t bs, RB t bs -> makes_by (HQuote t) (BBlockQuote bs)
  | MB_list : forall k items l, Forall2 item_of items l -> makes_by (HList k items) (BList (MkList k l))
  | MB_html : forall s, makes_by (HHtml s) (BHtmlBlock s)
  | MB_footnote : forall label t bs, RB t bs -> makes_by (HFootnote label t) (BFootnoteDefinition (FootnoteDefinition label bs))
  | MB_definition : forall label d t l, reads cfg label l -> makes_by (HDefinition label d t) (BDefinition (LinkDefinition l d t))
  | MB_table : forall h t, makes_table cfg h t -> makes_by h (BTable t)
  | MB_line : forall t l, reads cfg t l -> makes_by (HLine t) (BParagraph l).
  Lemma item_total : forall x, exists i, item_of x i.
  Proof. intros [t x]. destruct (RB_total x) as [bs B]. exists (ListItem t bs), bs. auto. Qed.
  Lemma all_total : forall A B (F : A -> B -> Prop), (forall a, exists b, F a b) -> forall l, exists l', Forall2 F l l'.
  Proof. intros A B F H l. induction l as [|a l (l' & IH)]; [exists []; constructor|]. destruct (H a) as [b Hb]. exists (b :: l'). now constructor. Qed.
  Lemma row_total : forall n ts, exists c, row_cells cfg n ts c.
  Proof.
    intros n ts. destruct (all_total _ _ (cell_reads cfg)) with (l := ts) as [l F]; [intro t; apply reads_total; assumption|]. eexists. apply resize_cells; eauto.
  Qed.
  Lemma makes_total : forall h, (forall l, h <> HCustom l) -> exists b, makes_by h b.
  Proof.
    intros h N. pose proof (reads_total cfg Hcustom Htext) as T. destruct h as [c|k t|t| |ty t|t|k items|x|label t|label d t|header rows al|l|t].
    all: try (destruct (T t) as [i Hi]; eexists; econstructor; exact Hi).
    all: try (destruct (RB_total t) as [i Hi]; eexists; econstructor; exact Hi).
    all: try (eexists; econstructor; fail).
    - destruct (all_total _ _ item_of item_total items) as [l F]. eexists. econstructor. exact F.
    - destruct (T label) as [i Hi]. eexists. econstructor. exact Hi.
    - destruct (row_total (len header) header) as [h H]. destruct (all_total _ _ (row_cells cfg (len header)) (row_total _) rows) as [l F]. eexists. apply MB_table. exists header, rows, al, h, l. auto.
    - now elim (N l).
  Qed.
  Definition built_block (R : rule shape) (s : str) (b : block) (r : str) : Prop := exists h, R s h r /\ makes_by h b.
  Definition plain_shape (h : shape) : Prop := forall l, h <> HCustom l.
  Lemma decides_block : forall A (p : parser A) (f : A -> block) R, exact p (fun s a r => built_block R s (f a) r) -> (forall s h r b, R s h r -> makes_by h b -> exists a, b = f a) -> (forall s h r, R s h r -> plain_shape h) -> decides p (applies R).
  Proof.
    intros A p f R H Hf Hp. eapply decides_iff; [apply decides_exact, H|]. intro s. unfold built_block, applies. split.
    - intros (a & r & h & X & _). eauto.
    - intros (h & r & X). destruct (makes_total h (Hp _ _ _ X)) as [b B]. destruct (Hf _ _ _ _ X B) as [a ->]. exists a, r, h. auto.
  Qed.

  Lemma code_shape : forall s h r, r_code_block s h r -> exists c, h = HCode c.
  Proof. intros s h r H. destruct H as [s ls r N H|s h r H]; [eauto|]. destruct H. eauto. Qed.
  Lemma bx_code : exact (pmap BCodeBlock p_code_block) (built_block r_code_block).
  Proof.
    eapply exact_iff; [apply exact_code_block|]. intros s b r. cbv beta. split.
    - intros (c & -> & H). exists (HCode c). split; [exact H|constructor].
    - intros (h & H & M). destruct (code_shape _ _ _ H) as [c ->]. inversion M as [| | | | | | | | | |? ? (? & ? & ? & ? & ? & Q & _)|]; subst; [eauto|discriminate].
  Qed.
  Definition atx_line (bare : bool) : parser (nat * str) :=
    prefix <- many_m_n 1 6 (chr "#") ;; _ <- (if bare then space0 else space1) ;; content <- line_terminated not_eof_or_eol1 ;; ret (List.length prefix, content).
  Lemma heading_by_line : forall s, p_heading_v1 cfg s = (x <- atx_line (allow_no_space_in_headings cfg) ;; c <- nested (inline_many0 cfg) (snd x) ;; ret (Heading (Atx (N.of_nat (fst x))) c)) s.
  Proof.
    intro s. unfold p_heading_v1, atx_line, bind. destruct (many_m_n 1 6 (chr "#") s) as [m pre| |]; try reflexivity. destruct ((if allow_no_space_in_headings cfg then space0 else space1) m) as [m1 w| |]; try reflexivity.
    destruct (line_terminated not_eof_or_eol1 m1); reflexivity.
  Qed.
  Lemma atx_shape : forall s h r, atx cfg s h r -> exists n v, h = HHeading (Atx (N.of_nat n)) v.
  Proof. intros s h r H. destruct H. eauto. Qed.
  Ltac not_table := match goal with Q : makes_table _ _ _ |- _ => destruct Q as (? & ? & ? & ? & ? & Q & _); discriminate end.
  Lemma bx_atx : exact (p_heading_v1 cfg) (fun s x r => built_block (atx cfg) s (BHeading x) r).
  Proof.
    eapply exact_ext; [apply heading_by_line|]. eapply exact_iff.
    - eapply exact_bind; [apply exact_atx_line|]. intro x. eapply exact_bind; [apply exact_inl0; assumption|]. intro c. apply exact_ret.
    - intros s y r. cbv beta. split.
      + intros ((n & v) & m & (k & -> & H) & c & m' & (-> & Hr) & -> & ->). cbn [fst snd] in *. exists (HHeading (Atx (N.of_nat n)) v). split; [exact H|]. now constructor.
      + intros (h & H & M). destruct (atx_shape _ _ _ H) as (n & v & ->). inversion M as [|? ? l Hr| | | | | | | | | |]; subst. exists (n, v), r. split; [exists (N.of_nat n); auto|].
        exists l, r. auto.
  Qed.
  Lemma bx_break : exact (value BThematicBreak p_thematic_break) (built_block r_break_line).
  Proof.
    eapply exact_iff; [eapply exact_value, exact_thematic|]. intros s b r. cbv beta. split.
    - intros (-> & _ & H). exists HBreak. split; [exact H|constructor].
    - intros (h & H & M). destruct H. inversion M; subst; [|not_table]. split; [reflexivity|]. exists tt. now constructor.
  Qed.
  Lemma bx_quote : exact (p_blockquote rec) (fun s x r => built_block r_quote s (BBlockQuote x) r).
  Proof.
    unfold p_blockquote. eapply exact_iff; [eapply exact_bind; [apply exact_quote_lines|]; intro ls; apply exact_nested1|]. intros s x r. cbv beta. split.
    - intros (ls & m & (N & H) & -> & Nb & B). eexists. split; [econstructor; eassumption|now constructor].
    - intros (h & H & M). destruct H as [s ls r N H Nb]. inversion M; subst. exists ls, r. auto.
  Qed.
  Lemma bx_item : exact (p_list_item rec) (fun s x r => exists y, item_at s y r /\ fst x = fst y /\ item_of (snd y) (snd x)).
  Proof.
    unfold p_list_item. eapply exact_iff.
    - apply exact_bind with (Q := fun x s y r => r = s /\ exists bs, RB (snd x) bs /\ y = (fst (fst x), ListItem (snd (fst x)) bs)); [apply exact_item_lines|]. intros ((k & t) & c).
      eapply exact_iff; [eapply exact_bind; [apply exact_nested0|intro; apply exact_ret]|]. intros s y r. cbv beta. cbn [fst snd]. split.
      + intros (bs & m & (-> & B) & -> & ->). eauto.
      + intros (-> & bs & B & ->). exists bs, s. auto.
    - intros s (k & i) r. cbv beta. cbn [fst snd]. split.
      + intros (((k' & t) & c) & m & H & -> & bs & B & E). cbn [fst snd] in *. injection E as -> ->. exists (k', (t, c)). split; [exact H|]. split; [reflexivity|]. exists bs. auto.
      + intros ((k' & t & c) & H & E1 & bs & B & E2). cbn [fst snd] in *. subst k' i. exists (k, t, c), r. split; [exact H|]. split; [reflexivity|]. exists bs. auto.
  Qed.
  Lemma eats_item : eats true (p_list_item rec). Proof. apply eats_list_item. Qed.
  Lemma bx_list : exact (p_list rec) (fun s x r => built_block r_list s (BList x) r).
  Proof.
    unfold p_list. eapply exact_iff.
    - apply exact_bind with (Q := fun items s x r => r = s /\ exists k i l, items = (k, i) :: l /\ x = MkList k (map snd items)); [apply exact_repeated1; [apply bx_item|eapply eats_weaken, eats_item]|].
      intros [|(k & i) l]; (eapply exact_iff; [first [apply exact_fail|apply exact_ret]|]); intros s x r; cbv beta; (split; [|]).
      + tauto.
      + intros (_ & k & i & l & Q & _). discriminate.
      + intros (-> & ->). split; [reflexivity|]. eauto.
      + intros (-> & k' & i' & l' & Q & ->). injection Q as <- <- <-. auto.
    - intros s x r. cbv beta. 
      pose proof (repeated_F2 _ _ item_at (fun y (x : list_kind * list_item) => fst x = fst y /\ item_of (snd y) (snd x))) as F2.
      assert (F2' : forall a, exists b : list_kind * list_item, fst b = fst a /\ item_of (snd a) (snd b)) by (intros (k & y); destruct (item_total y) as [i Hi]; exists (k, i); auto).
      specialize (F2 F2'). split.
      + intros (items & m & (N & H) & -> & k & i & l & -> & ->). apply F2 in H as (ys & H & F). inversion F as [|(k' & y) ? ys' ? (E & Hy) F']; subst. cbn [fst snd] in *. subst k'.
        exists (HList k (y :: map snd ys')). split; [now constructor|]. constructor. cbn [map]. constructor; [exact Hy|].
        clear - F'. induction F' as [|a b l l' [_ H] F IH]; cbn; constructor; auto.
      + intros (h & H & M). destruct H as [s k y ys r H]. inversion M as [| | | | | |? ? l F| | | | |]; subst. inversion F as [|? i ? l' Hy F']; subst.
        assert (X : exists its : list (list_kind * list_item), Forall2 (fun y x => fst x = fst y /\ item_of (snd y) (snd x)) ys its /\ map snd its = l').
        { clear - F'. remember (map snd ys) as u eqn:Eu. revert ys Eu. induction F' as [|a b u l' H F IH]; intros ys Eu; destruct ys as [|(k & y) ys]; try discriminate; [exists []; split; [constructor|reflexivity]|].
          injection Eu as -> Eu. destruct (IH ys Eu) as (its & X & <-). exists ((k, b) :: its). split; [constructor; auto|reflexivity]. }
        destruct X as (its & Fi & <-). exists ((k, i) :: its), r. split; [split; [discriminate|]; apply F2; exists ((k, y) :: ys); split; [exact H|]; constructor; auto|]. split; [reflexivity|]. exists k, i, its. auto.
  Qed.
  Lemma bx_html : exact p_html_block (fun s v r => built_block r_html s (BHtmlBlock v) r).
  Proof.
    eapply exact_iff; [apply exact_html_block|]. intros s v r. cbv beta. split.
    - intros H. exists (HHtml v). split; [exact H|constructor].
    - intros (h & H & M). destruct H as [k m v' r L H]. inversion M; subst. now constructor.
  Qed.
  Lemma bx_footnote : exact (p_footnote_definition rec) (fun s x r => built_block r_footnote_def s (BFootnoteDefinition x) r).
  Proof.
    unfold p_footnote_definition. eapply exact_iff.
    - apply exact_bind with (Q := fun x s y r => r = s /\ exists bs, RB (snd x) bs /\ y = FootnoteDefinition (fst x) bs); [apply exact_footnote_lines|]. intros (l & c).
      eapply exact_iff; [eapply exact_bind; [apply exact_nested0|intro; apply exact_ret]|]. intros s y r. cbv beta. cbn [fst snd]. split.
      + intros (bs & m & (-> & B) & -> & ->). eauto.
      + intros (-> & bs & B & ->). exists bs, s. auto.
    - intros s x r. cbv beta. split.
      + intros ((l & c) & m & H & -> & bs & B & ->). cbn [fst snd] in *. eexists. split; [exact H|now constructor].
      + intros (h & H & M). pose proof H as H0. inversion H0; subst. inversion M; subst. eexists (_, _), r. cbn [fst snd]. split; [exact H|]. split; [reflexivity|]. eauto.
  Qed.
  Lemma bx_definition : exact (p_link_definition cfg) (fun s x r => built_block r_definition s (BDefinition x) r).
  Proof.
    eapply exact_iff; [apply exact_definition; assumption|]. intros s x r. cbv beta. split.
    - intros (label & d & t & l & H & R & ->). eexists. split; [exact H|now constructor].
    - intros (h & H & M). pose proof H as H0. inversion H0; subst. inversion M; subst. eauto 8.
  Qed.
  Lemma bx_table : exact (p_table cfg) (fun s x r => built_block r_table s (BTable x) r).
  Proof.
    eapply exact_iff; [apply exact_table; assumption|]. intros s x r. cbv beta. split.
    - intros (h & H & M). exists h. split; [exact H|now constructor].
    - intros (h & H & M). inversion M; subst. eauto.
  Qed.

  (** ** Paragraphs *)
  Ltac shape_of := let H := fresh in intros ? ? ? H; destruct H; intros ? ?; discriminate.
  Lemma quote_plain : forall s h r, r_quote s h r -> plain_shape h. Proof. shape_of. Qed.
  Lemma d_starter : decides (alt
      [ conditional_unit (b_heading_v1 cfg) (p_unit (p_heading_v1 cfg));
        conditional_unit (b_heading_v2 cfg) (p_unit p_heading_v2_level);
        conditional_unit (b_thematic_break cfg) p_thematic_break;
        conditional_unit (b_blockquote cfg) (p_unit (p_blockquote rec));
        conditional_unit (b_list cfg) (p_unit (p_list_item rec));
        conditional_unit (b_code_block cfg) (p_unit p_code_block_fenced);
        conditional_unit (b_html_block cfg) (p_unit p_html_block);
        conditional_unit (b_link_definition cfg) (p_unit (p_link_definition cfg));
        conditional_unit (b_footnote_definition cfg) (p_unit (p_footnote_definition rec));
        conditional_unit (b_table cfg) (p_unit (p_table cfg));
        p_unit (p_custom_block cfg);
        p_unit (line_terminated space0) ]) (starter cfg).
  Proof.
    eapply decides_iff; [apply decides_alt with (Ps := 
      [ applies (on (b_heading_v1 cfg) (atx cfg)); applies (on (b_heading_v2 cfg) underline); applies (on (b_thematic_break cfg) r_break_line); applies (on (b_blockquote cfg) r_quote);
        applies (on (b_list cfg) item_at); applies (on (b_code_block cfg) r_fenced); applies (on (b_html_block cfg) r_html); applies (on (b_link_definition cfg) r_definition);
        applies (on (b_footnote_definition cfg) r_footnote_def); applies (on (b_table cfg) r_table); applies (r_custom_block cfg); applies blank_line ])|intro s; reflexivity]; [|discriminate].
    repeat apply Forall2_cons; try apply Forall2_nil; try apply decides_cond; try (match goal with |- decides (p_unit _) _ => apply decides_unit end).
    - apply decides_block with (f := BHeading); [apply bx_atx| |].
      + intros s h r b H M. destruct H. inversion M; subst; [eauto|not_table].
      + intros s h r H. destruct H. intros l; discriminate.
    - apply decides_exact, exact_underline.
    - eapply decides_iff; [apply decides_exact, exact_thematic|]. intro s. split; [intros (_ & r & H); now exists HBreak, r|]. intros (h & r & H). destruct H. exists tt. eexists. econstructor; eassumption.
    - apply decides_block with (f := BBlockQuote); [apply bx_quote| |].
      + intros s h r b H M. destruct H. inversion M; subst; [eauto|not_table].
      + intros s h r H. destruct H. intros l; discriminate.
    - eapply decides_iff; [apply decides_exact, bx_item|]. intro s. split; [intros (x & r & y & H & _); now exists y, r|]. intros ((k & y) & r & H). destruct (item_total y) as [i Hi]. exists (k, i), r, (k, y). auto.
    - eapply decides_iff; [apply decides_exact, exact_fenced|]. intro s. split; [intros (c & r & H); now exists (HCode c), r|]. intros (h & r & H). pose proof H as H0. destruct H0. eexists _, _. exact H.
    - eapply decides_iff; [apply decides_exact, exact_html_block|]. intro s. split; [intros (c & r & H); now exists (HHtml c), r|]. intros (h & r & H). pose proof H as H0. destruct H0. eexists _, _. exact H.
    - apply decides_block with (f := BDefinition); [apply bx_definition| |].
      + intros s h r b H M. destruct H. inversion M; subst; [eauto|not_table].
      + intros s h r H. destruct H. intros l; discriminate.
    - apply decides_block with (f := BFootnoteDefinition); [apply bx_footnote| |].
      + intros s h r b H M. destruct H. inversion M; subst; [eauto|not_table].
      + intros s h r H. destruct H. intros ?; discriminate.
    - apply decides_block with (f := BTable); [apply bx_table| |].
      + intros s h r b H M. destruct H. inversion M; subst. eauto.
      + intros s h r H. destruct H. intros l; discriminate.
    - unfold p_custom_block. destruct (custom_block cfg) as [p|] eqn:E.
      + split; [exact (proj2 (proj2 Hcustom p E))|]. intro s. split; [intros (r & l & X); exists (HCustom l), r; now econstructor; [exact E|]|].
        intros (h & r & H). destruct H as [p' s l r E' H]. assert (p' = p) as -> by congruence. eauto.
      + split; [discriminate|]. intro s. split; [intros (r & l & X); discriminate|]. intros (h & r & H). destruct H. congruence.
    - eapply decides_iff; [apply decides_exact, exact_blank_space|]. intro s. symmetry. apply blank_line_ex.
  Qed.
  Lemma exact_start : exact (p_is_paragraph_line_start cfg rec) (fun s (_ : unit) r => r = s /\ ~ starter cfg s).
  Proof. unfold p_is_paragraph_line_start. apply exact_line_start, d_starter. Qed.
  Lemma exact_par_line : exact (preceded (p_is_paragraph_line_start cfg rec) (preceded up_to_3_spaces not_eof_or_eol1)) (line_stop (starter cfg)).
  Proof.
    eapply exact_iff; [eapply exact_preceded; [apply exact_start|eapply exact_strip_then, exact_rest_text]|]. intros s v r. cbv beta. unfold line_stop. split.
    - intros (_ & m & (-> & N) & m' & H). eauto.
    - intros (N & m & H). exists tt, s. eauto.
  Qed.
  Lemma eats_par_line : eats true (preceded (p_is_paragraph_line_start cfg rec) (preceded up_to_3_spaces not_eof_or_eol1)).
  Proof. unfold p_is_paragraph_line_start. eats. Qed.
  Lemma starter_end : forall s r, line_end s r -> starter cfg s.
  Proof. intros s r L. unfold starter. do 11 apply Exists_cons_tl. apply Exists_cons_hd. apply blank_line_ex. exists [], r, s. split; [reflexivity|]. split; [constructor|exact L]. Qed.
  Lemma join_nil : forall ls, ls <> [] -> Forall (fun v => v <> []) ls -> join [c_nl] ls <> [].
  Proof. intros ls N F. destruct F as [|v ls Nv F]; [now elim N|]. destruct v; [now elim Nv|]. destruct ls; discriminate. Qed.
  Lemma full_nonempty : forall s ls r, repeated (line_full (starter cfg)) s ls r -> Forall (fun v => v <> []) ls.
  Proof. intros s ls r H. induction H as [|s v m ls r (_ & q & _ & (m' & _ & N & _)) H IH]; constructor; auto. Qed.
  Lemma bx_lines : exact (p_heading_v2_or_paragraph cfg rec) (built_block (r_lines cfg)).
  Proof.
    unfold p_heading_v2_or_paragraph, p_paragraph. eapply exact_iff.
    - eapply exact_bind.
      + eapply exact_bind; [apply exact_ret|]. intro l0. eapply exact_bind; [apply exact_sep0_lines; [apply exact_par_line|apply eats_par_line]|]. intro ls. apply exact_inl1; assumption.
      + intro c. eapply exact_bind; [eapply exact_opt, exact_underline|]. intro lv. apply exact_ret.
    - intros s b r. cbv beta. split.
      + intros (c & m & (l0 & m0 & (-> & ->) & ls & m1 & H & -> & N & R) & lv & m2 & Hu & -> & ->). cbn [app] in *. destruct H as [(-> & _)|(Nl & H)]; [now elim N|].
        destruct lv as [l|]; [exists (HHeading (Setext l) (join [c_nl] ls))|exists (HText (join [c_nl] ls))]; (split; [|now constructor]); [now apply R_setext with m1|].
        destruct Hu as [<- Nu]. now constructor.
      + intros (h & H & M). destruct H as [s ls m l r N H U|s ls r N H U]; (inversion M; subst; [|not_table]).
        * exists l0, m. split; [|exists (Some l), r; split; [exact U|]; auto]. exists [], s. split; [auto|]. exists ls, m. cbn [app]. split; [right; auto|]. split; [reflexivity|]. split; [|assumption]. apply join_nil; [exact N|]. eapply full_nonempty, H.
        * exists l, r. split; [|exists None, r; split; [auto|]; auto]. exists [], s. split; [auto|]. exists ls, r. cbn [app]. split; [right; auto|]. split; [reflexivity|]. split; [|assumption]. apply join_nil; [exact N|]. eapply full_nonempty, H.
  Qed.
  Lemma bx_line : exact (pmap BParagraph (p_paragraph cfg rec false)) (built_block r_line).
  Proof.
    unfold p_paragraph. eapply exact_iff.
    - eapply exact_pmap. eapply exact_bind; [eapply exact_pmap, exact_strip_then, exact_rest_text|]. intro l0. eapply exact_bind; [apply exact_sep0_lines; [apply exact_par_line|apply eats_par_line]|]. intro ls. apply exact_inl1; assumption.
    - intros s b r. cbv beta. split.
      + intros (c & (l0 & m & (v & (m0 & S1 & T) & ->) & ls & m1 & H & -> & N & R) & ->). destruct (rest_text_end _ _ _ T) as [r' L].
        assert (Q : ls = [] /\ line_end m m1).
        { destruct H as [(-> & _ & L')|(Nl & H)]; [auto|]. exfalso. destruct H as [|s' a q ls q' (Ns & _) _]; [now elim Nl|]. apply Ns. eapply starter_end, L. }
        destruct Q as [-> L']. cbn [app join] in *. exists (HLine v). split; [|now constructor]. econstructor; [exact S1|]. apply text_line_rest. eauto.
      + intros (h & H & M). destruct H as [s m v r S1 T]. apply text_line_rest in T as (q & T & L). inversion M; subst; [not_table|]. exists l. split; [|reflexivity]. exists [v], q. split; [exists v; split; [|reflexivity]; eauto|].
        exists [], r. cbn [app join]. split; [left; split; [reflexivity|]; split; [|exact L]|]. 
        * intros (v' & r' & Ns & _). apply Ns. eapply starter_end, L.
        * split; [reflexivity|]. split; [apply T|assumption].
  Qed.

  (** ** Alerts *)
  Lemma upper_same : forall x, to_uppercase cfg x = upper_text cfg x.
  Proof. reflexivity. Qed.
  Lemma exact_first_line : exact (peek (preceded (pair_ p_quote_prefix (opt (chr " "))) (line_terminated not_eof_or_eol0)))
    (fun s v r => r = s /\ exists l m, quote_line s l m /\ (l = c_sp :: v \/ l = v /\ ~ begins_with c_sp v)).
  Proof.
    unfold p_quote_prefix. eapply exact_iff.
    - eapply exact_peek, exact_preceded; [eapply exact_pair; [eapply exact_up3; [ex|]; intros t a r; apply not_space; discriminate|ex]|apply exact_plain_line].
    - intros s v r. cbv beta. unfold quote_line. split.
      + intros (<- & r' & (q & o) & m & (m1 & (k & m2 & E & Lk & Eq & E2) & Ho) & m3 & Em & N1 & N2 & Le). cbn [fst snd] in *. subst. split; [reflexivity|]. destruct o as [o|].
        * destruct Ho as [-> ->]. exists (c_sp :: v), r'. split; [|left; reflexivity]. exists k, (c_sp :: v ++ m3). split; [reflexivity|]. split; [exact Lk|]. exists m3. split; [reflexivity|].
          split; [intros [Q|Q]; [discriminate|auto]|]. split; [intros [Q|Q]; [discriminate|auto]|exact Le].
        * destruct Ho as [-> No]. exists v, r'. split; [|right; split; [reflexivity|]].
          -- exists k, (v ++ m3). split; [reflexivity|]. split; [exact Lk|]. exists m3. auto.
          -- intros [t ->]. apply No. eexists (ch " "), _. split; [reflexivity|]. cbn. reflexivity.
      + intros (-> & l & r' & (k & m & -> & Lk & m3 & -> & N1 & N2 & Le) & H). split; [reflexivity|]. exists r'. destruct H as [->|[-> Nb]].
        * exists (ch ">", Some (ch " ")), (v ++ m3). split; [|exists m3; split; [reflexivity|]; split; [intro; apply N1; now right|]; split; [intro; apply N2; now right|exact Le]].
          exists ((c_sp :: v) ++ m3). cbn [fst snd]. split; [exists k, (ch ">" :: (c_sp :: v) ++ m3); auto|]. auto.
        * exists (ch ">", None), (v ++ m3). split; [|exists m3; auto]. exists (v ++ m3). cbn [fst snd]. split; [exists k, (ch ">" :: v ++ m3); auto|]. split; [reflexivity|].
          intros (x & q & _ & Q). destruct v as [|c v]; [|apply Nb; injection Q as -> _; now exists v]. cbn in Q. subst m3. now apply line_end_not in Le.
  Qed.
  Lemma exact_alert_body : forall inner, exact (match inner with [] => ret [] | _ => pmap (@concat _) (nested (many1 rec) inner) end) (fun s bs r => r = s /\ (inner = [] \/ ~ blank inner) /\ RB inner bs).
  Proof.
    intros [|c inner].
    - eapply exact_iff; [apply exact_ret|]. intros s bs r. cbv beta. assert (R0 : RB [] []) by (exists [], []; split; [|reflexivity]; unfold many0; cbn [List.length many0_go]; rewrite (block_blank [] blank_nil); reflexivity). split.
      + intros (-> & ->). auto.
      + intros (-> & _ & B). split; [|reflexivity]. eapply RB_fun; eassumption.
    - eapply exact_iff; [apply exact_nested1|]. intros s bs r. cbv beta. split; [intros (-> & N & B); auto|]. intros (-> & [Q|N] & B); [discriminate|auto].
  Qed.
  Definition alert_shape (h : shape) (b : list block) : Prop := exists ty t bs, h = HAlert ty t /\ b = [BGitHubAlert (GitHubAlert ty bs)] /\ RB t bs.
  Lemma bx_alert : exact (p_github_alert cfg rec) (fun s o r => exists h, r_alert (upper_text cfg) s h r /\ alert_shape h o).
  Proof.
    unfold p_github_alert. eapply exact_iff.
    - eapply exact_bind; [apply exact_first_line|]. intro fl.
      instantiate (1 := fun fl s o r => exists ty ls bs, parse_alert_marker cfg (trim fl) = Some ty /\ (ls <> [] /\ repeated quote_line s ls r) /\
        (join [c_nl] (tl ls) = [] \/ ~ blank (join [c_nl] (tl ls))) /\ RB (join [c_nl] (tl ls)) bs /\ o = [BGitHubAlert (GitHubAlert ty bs)]).
      destruct (parse_alert_marker cfg (trim fl)) as [ty|] eqn:Ep.
      + eapply exact_iff; [eapply exact_bind; [apply exact_quote_lines|]; intro ls; cbv zeta; eapply exact_bind; [apply exact_alert_body|]; intro bs; apply exact_ret|].
        intros s o r. cbv beta. split.
        * intros (ls & m & H & bs & m' & (-> & Hi & B) & -> & ->). exists ty, ls, bs. auto 7.
        * intros (ty' & ls & bs & Q & H & Hi & B & ->). assert (ty' = ty) as -> by congruence. exists ls, r. split; [exact H|]. exists bs, r. auto.
      + eapply exact_iff; [apply exact_fail|]. intros s o r. split; [tauto|]. intros (ty & ls & bs & Q & _). congruence.
    - intros s o r. cbv beta.
      assert (QF : forall s l m l' m', quote_line s l m -> quote_line s l' m' -> l = l' /\ m = m') by (intros; eapply (exact_fun _ _ exact_quote_line); eassumption).
      assert (TR : forall l v, l = c_sp :: v \/ l = v /\ ~ begins_with c_sp v -> trim v = trim l) by (intros l v [->|[-> _]]; [now rewrite trim_space|reflexivity]). split.
      + intros (fl & m & (-> & l & m1 & Hq & Hl) & ty & ls & bs & Hp & (N & H) & Hi & B & ->). inversion H as [s' Ns|s' l' m' ls' r' Hq' H']; subst; [now elim N|].
        destruct (QF _ _ _ _ _ Hq Hq') as [<- <-]. cbn [tl] in *. exists (HAlert ty (join [c_nl] ls')). split; [|exists ty, (join [c_nl] ls'), bs; auto].
        apply alert_marker_exact in Hp as (name & Hu & Hn). rewrite trim_idem, (TR _ _ Hl) in Hu. econstructor; [exact H|apply trimmed_trim|exact Hu|exact Hn|exact Hi].
      + intros (h & H & ty & t & bs & -> & -> & B). inversion H as [s' l ls r' u name ty' Hr Ht Hu Hn Hi]; subst. inversion Hr as [|s' l' m' ls' r' Hq H']; subst. apply trimmed_eq in Ht as ->.
        assert (X : exists fl, l = c_sp :: fl \/ l = fl /\ ~ begins_with c_sp fl).
        { destruct l as [|c l]; [exists []; right; split; [reflexivity|]; intros [t Q]; discriminate|]. destruct (N.eq_dec c c_sp) as [->|Nc]; [exists l; now left|]. exists (c :: l). right. split; [reflexivity|]. intro Q. apply begins_cons in Q. auto. }
        destruct X as [fl Hfl]. exists fl, s. split; [split; [reflexivity|]; eauto|]. exists ty, (l :: ls), bs. cbn [tl]. split; [|split; [split; [discriminate|exact Hr]|auto]].
        apply alert_marker_exact. exists name. rewrite trim_idem, (TR _ _ Hfl). auto.
  Qed.

  (** ** Alternatives *)
  Definition gives_block (h : shape) (o : list block) : Prop :=
    (exists b, makes_by h b /\ o = outcome BEmpty (block_behavior cfg h) b) \/ h = HCustom o.
  Definition emits (R : rule shape) (s : str) (o : list block) (r : str) : Prop := exists h, R s h r /\ gives_block h o.
  Definition good_block (p : parser (list block)) (R : rule shape) : Prop := exact p (emits R) /\ forall s h r, R s h r -> exists o, gives_block h o.
  Lemma good_block_cond : forall b p R, exact p (built_block R) -> (forall s h r, R s h r -> plain_shape h /\ block_behavior cfg h = b) ->
    good_block (conditional_block b p) (on b R).
  Proof.
    intros b p R H HB. split.
    - assert (G : forall f : block -> list block, b <> Ignore -> (forall i, f i = outcome BEmpty b i) -> exact (pmap f p) (emits (on b R))).
      { intros f Nb Hf. eapply exact_iff; [apply exact_pmap, H|]. intros s o r. unfold emits, on, built_block, gives_block. split.
        - intros (i & (q & X & B) & ->). exists q. split; [auto|]. left. exists i. split; [exact B|]. now rewrite (proj2 (HB _ _ _ X)), Hf.
        - intros (q & (_ & X) & [(i & B & ->)| ->]).
          + exists i. rewrite (proj2 (HB _ _ _ X)), Hf. eauto.
          + apply HB in X as [X _]. now elim (X o). }
      unfold conditional_block. destruct b; cbn [conditional].
      all: first [ apply (G (fun v => [v])); [discriminate|reflexivity]
                 | apply (G (fun _ => [BEmpty])); [discriminate|reflexivity]
                 | apply (G (fun v => [f v])); [discriminate|reflexivity]
                 | apply (G f); [discriminate|reflexivity]
                 | idtac ].
      eapply exact_iff; [apply exact_fail|]. intros s o r. unfold emits, on. split; [tauto|]. intros (q & (N & _) & _). now elim N.
    - intros s q r [_ X]. destruct (makes_total q (proj1 (HB _ _ _ X))) as [i B]. eexists. left. eauto.
  Qed.
  Lemma good_alert : good_block (conditional_block_vec (b_github_alert cfg) (p_github_alert cfg rec)) (on (b_github_alert cfg) (r_alert (upper_text cfg))).
  Proof.
    assert (SH : forall s h r, r_alert (upper_text cfg) s h r -> exists ty t, h = HAlert ty t) by (intros s h r H; destruct H; eauto). split.
    - assert (P : b_github_alert cfg <> Ignore -> b_github_alert cfg <> Skip -> exact (p_github_alert cfg rec) (emits (on (b_github_alert cfg) (r_alert (upper_text cfg))))).
      { intros N1 N2. eapply exact_iff; [apply bx_alert|]. intros s o r. cbv beta. unfold emits, on, gives_block. split.
        - intros (h & H & ty & t & bs & -> & -> & B). exists (HAlert ty t). split; [auto|]. left. exists (BGitHubAlert (GitHubAlert ty bs)). split; [now constructor|]. cbn [block_behavior]. now destruct (b_github_alert cfg).
        - intros (h & (_ & H) & G). exists h. split; [exact H|]. destruct (SH _ _ _ H) as (ty & t & ->). destruct G as [(b & M & ->)|Q]; [|discriminate].
          inversion M; subst; [|not_table]. exists ty, t, bs. split; [reflexivity|]. split; [|assumption]. cbn [block_behavior]. now destruct (b_github_alert cfg). }
      unfold conditional_block_vec. destruct (b_github_alert cfg) eqn:E; try (apply P; discriminate).
      + eapply exact_iff; [apply exact_fail|]. intros s o r. unfold emits, on. split; [tauto|]. intros (q & (N & _) & _). now elim N.
      + eapply exact_iff; [eapply exact_value, bx_alert|]. intros s o r. cbv beta. unfold emits, on, gives_block. split.
        * intros (-> & o' & h & H & ty & t & bs & -> & -> & B). exists (HAlert ty t). split; [split; [discriminate|exact H]|]. left. exists (BGitHubAlert (GitHubAlert ty bs)). split; [now constructor|]. cbn [block_behavior]. now rewrite E.
        * intros (h & (_ & H) & G). destruct (SH _ _ _ H) as (ty & t & ->). destruct G as [(b & M & ->)|Q]; [|discriminate]. cbn [block_behavior]. rewrite E. split; [reflexivity|].
          inversion M; subst; [|not_table]. eexists. exists (HAlert ty t). split; [exact H|]. exists ty, t, bs. auto.
    - intros s h r [_ H]. destruct (SH _ _ _ H) as (ty & t & ->). destruct (RB_total t) as [bs B]. eexists. left. eexists. split; [now constructor; exact B|reflexivity].
  Qed.
  Lemma good_custom_block : good_block (p_custom_block cfg) (r_custom_block cfg).
  Proof.
    unfold p_custom_block. split.
    - destruct (custom_block cfg) as [p|] eqn:E.
      + split; [exact (proj2 (proj2 Hcustom p E))|]. intros s r o. unfold emits, gives_block. split.
        * intro H. exists (HCustom o). split; [econstructor; eassumption|now right].
        * intros (q & H & G). inversion H as [p' s' l' r' E' H']; subst. destruct G as [(i & B & _)|G]; [inversion B; not_table|]. injection G as <-. congruence.
      + eapply exact_iff; [apply exact_fail|]. intros s o r. split; [tauto|]. intros (q & H & _). inversion H; congruence.
    - intros s q r H. inversion H; subst. eexists. now right.
  Qed.
  Lemma good_block_alt : forall ps Rs, Forall2 good_block ps Rs -> exact (alt ps) (emits (first_of Rs)).
  Proof.
    intros ps Rs H. induction H as [|p R ps Rs [H1 H2] H IH].
    - eapply exact_iff; [apply exact_fail|]. intros s o r. unfold emits. cbn. split; [tauto|]. now intros (q & [] & _).
    - assert (X : exact (or_else p (alt ps)) (emits (first_of (R :: Rs)))).
      { eapply exact_iff; [apply exact_or; [exact H1|exact IH]|]. intros s o r. unfold emits. cbn [first_of]. split.
        - intros [(q & A & B)|(N & q & A & B)]; exists q; (split; [|exact B]); [now left|right; split; [|exact A]].
          intros (q' & r' & Q). apply N. destruct (H2 _ _ _ Q) as [o' G]. exists o', r', q'. auto.
        - intros (q & [A|[N A]] & B); [left; eauto|right]. split; [|eauto]. intros (o' & r' & q' & Q & _). apply N. now exists q', r'. }
      destruct ps as [|p' ps]; [|exact X]. cbn [alt]. eapply exact_iff; [exact H1|]. intros s o r. inversion H; subst. unfold emits. cbn [first_of]. split; intros (q & A & B); exists q; [auto|].
      split; [|exact B]. destruct A as [A|[_ []]]. exact A.
  Qed.
  Lemma pmap_built : forall A (p : parser A) (f : A -> block) R, exact p (fun s a r => built_block R s (f a) r) -> (forall s h r b, R s h r -> makes_by h b -> exists a, b = f a) -> exact (pmap f p) (built_block R).
  Proof.
    intros A p f R H Hf. eapply exact_iff; [eapply exact_pmap, H|]. intros s b r. cbv beta. split; [intros (a & X & ->); exact X|]. intros (h & X & M). destruct (Hf _ _ _ _ X M) as [a ->]. exists a. split; [exists h; auto|reflexivity].
  Qed.
  Theorem exact_blocks1 : exact (p_block cfg rec) (fun s o r => exists bl m, repeated blank_line s bl m /\ emits (first_of (block_rules cfg)) m o r).
  Proof.
    unfold p_block. apply exact_after_blanks, good_block_alt. unfold block_rules.
    repeat apply Forall2_cons; try apply Forall2_nil; try exact good_alert; try exact good_custom_block; apply good_block_cond.
    all: try (let H := fresh in intros ? ? ? H; split; [|]; [first [destruct (code_shape _ _ _ H) as [? ->]|destruct H]; intros ? ?; discriminate|first [destruct (code_shape _ _ _ H) as [? ->]|destruct H]; reflexivity]).
    all: try (lazymatch goal with |- exact (pmap BParagraph _) _ => fail | _ => idtac end; apply pmap_built; [|let H := fresh in let M := fresh in intros ? ? ? ? H M; destruct H; inversion M; subst; eauto; not_table]).
    - apply bx_code.
    - apply bx_atx.
    - apply bx_lines.
    - apply bx_break.
    - apply bx_quote.
    - apply bx_list.
    - apply bx_html.
    - apply bx_footnote.
    - apply bx_definition.
    - apply bx_table.
    - apply bx_line.
  Qed.

  (** ** The whole document *)
  Definition step_block (s : str) (o : list block) (r : str) : Prop := exists bl m, repeated blank_line s bl m /\ emits (first_of (block_rules cfg)) m o r.
  Lemma exact_step_block : exact rec step_block.
  Proof. eapply exact_ext; [intro s; apply block_unfold, Hcustom|apply exact_blocks1]. Qed.
  Lemma RB_iff : forall s bs, RB s bs <-> exists r ll, many_of step_block s ll r /\ bs = concat ll.
  Proof.
    intros s bs. pose proof (exact_many0 _ _ exact_step_block (eats_weaken _ _ _ rec_block_eats)) as X. unfold RB. split; intros (r & ll & H & ->); exists r, ll; (split; [|reflexivity]).
    - exact (exact_inv _ _ X _ _ _ H).
    - exact (exact_ok _ _ X _ _ _ H).
  Qed.
  Lemma blocks_sound :
    (forall h b, makes cfg h b -> makes_by h b) /\ (forall items l, item_blocks cfg items l -> Forall2 item_of items l) /\
    (forall h o, makes_all cfg h o -> gives_block h o) /\ (forall s bs, blocks cfg s bs -> RB s bs).
  Proof.
    apply (blocks_mut cfg (fun h b _ => makes_by h b) (fun items l _ => Forall2 item_of items l) (fun h o _ => gives_block h o) (fun s bs _ => RB s bs)).
    all: try (intros; constructor; assumption).
    - intros header rows al h l H F. apply MB_table. exists header, rows, al, h, l. auto.
    - intros t text bs items l B HB IB F. constructor; [|exact F]. exists bs. auto.
    - intros h b M IH. left. exists b. auto.
    - intros l. now right.
    - intros s B. apply RB_iff. exists s, []. split; [|reflexivity]. apply many_stop. intros (o & r & X). apply (exact_ok _ _ exact_step_block) in X. rewrite (block_blank _ B) in X. discriminate.
    - intros s bl m h r o l Bl F Mk G Bs IH. apply RB_iff in IH as (q & ll & M & ->). apply RB_iff. exists q, (o :: ll). split; [|reflexivity].
      assert (X : step_block s o r) by (exists bl, m; split; [exact Bl|]; exists h; auto). refine (many_step _ _ o _ _ _ X _ M).
      apply (exact_ok _ _ exact_step_block) in X. exact (eats_lt _ _ _ _ _ rec_block_eats X).
  Qed.
  (** the contents of a block are shorter than its source *)
  Definition inside (h : shape) : list str :=
    match h with HAlert _ t | HQuote t | HFootnote _ t => [t] | HList _ items => map snd items | _ => [] end.
  Lemma blanks_len : forall s bl m, repeated blank_line s bl m -> len m <= len s.
  Proof. intros s bl m H. apply blanks_concat in H as ->. rewrite app_length. lia. Qed.
  Lemma items_len : forall s ys r, repeated item_at s ys r -> Forall (fun y => len (snd (snd y)) < len s) ys.
  Proof.
    intros s ys r H. induction H as [|s (k & t & c) m ys r X H IH]; constructor.
    - cbn [snd]. apply (exact_ok _ _ exact_item_lines s (k, t, c) m) in X. now apply item_lines_lt in X.
    - revert IH. apply Forall_impl. intros y L. apply (exact_ok _ _ exact_item_lines s (k, t, c) m) in X. apply (eats_len _ false) in X; [lia|]. unfold p_list_item_lines. eats.
  Qed.
  Lemma first_inside : forall s h r, first_of (block_rules cfg) s h r -> Forall (fun x => len x < len s) (inside h).
  Proof.
    intros s h r H. unfold block_rules in H. cbn [first_of] in H.
    repeat (match type of H with _ \/ (_ /\ _) => destruct H as [H|[_ H]] end); try (unfold on in H; apply proj2 in H); try (destruct H; constructor; fail).
    - destruct (code_shape _ _ _ H) as [c ->]. constructor.
    - destruct H as [s l ls r u name ty H _ _ _ _]. constructor; [|constructor]. assert (X : p_quote_lines s = Ok r (l :: ls)) by (apply (exact_ok _ _ exact_quote_lines); split; [discriminate|exact H]). exact (quote_lines_tl_lt _ _ _ X).
    - destruct H as [s ls r N H _]. constructor; [|constructor]. assert (X : p_quote_lines s = Ok r ls) by (apply (exact_ok _ _ exact_quote_lines); auto). exact (quote_lines_lt _ _ _ X).
    - destruct H as [s k x items r H]. apply items_len in H. cbn [inside map]. inversion H as [|? ? H1 H2]; subst. constructor; [exact H1|]. clear - H2. induction H2; constructor; auto.
    - pose proof H as H0. destruct H0. constructor; [|constructor].
      apply (exact_ok _ _ exact_footnote_lines _ (_, _) _) in H. now apply footnote_lines_lt in H.
  Qed.
  Lemma blocks_complete : forall n s bs, len s <= n -> RB s bs -> blocks cfg s bs.
  Proof.
    induction n as [n IH] using lt_wf_ind. intros s bs L B.
    assert (MK : forall h b, Forall (fun x => len x < n) (inside h) -> makes_by h b -> makes cfg h b).
    { intros h b F M. assert (Q : forall x c, len x < n -> RB x c -> blocks cfg x c) by (intros x c Lx R; exact (IH (len x) Lx x c (le_n _) R)).
      inversion M as [| | | | | |k items l F2| | | |h' t (header & rows & al & h1 & l & -> & -> & R1 & R2)|]; subst; cbn in F; repeat match goal with H : Forall _ (_ :: _) |- _ => inversion H; clear H; subst end;
        try (constructor; auto; fail).
      constructor. clear - F F2 Q. induction F2 as [|(t & x) i items l (bs & B & ->) F2 IH2]; [constructor|]. cbn [map fst snd] in *. inversion F; subst. constructor; auto. }
    apply RB_iff in B as (r & ll & M & ->). revert L. induction M as [s N|s o m ll r (bl & q & Bl & h & F & G) Lt M IHM]; intro L.
    - apply Blocks_end. destruct (block_total cfg Hcustom Htext Hpar s) as [[B _]|(r & l & E)]; [exact B|]. elim N. exists l, r. exact (exact_inv _ _ exact_step_block _ _ _ E).
    - cbn [concat]. eapply Blocks_more; [exact Bl|exact F| |apply IHM; unfold char, str in *; lia]. destruct G as [(b & Mb & ->)| ->]; [|constructor]. constructor. apply MK; [|exact Mb].
      apply first_inside in F. apply blanks_len in Bl. revert F. apply Forall_impl. intros x Lx. unfold char, str in *. lia.
  Qed.
  Theorem blocks_RB : forall s bs, RB s bs <-> blocks cfg s bs.
  Proof. intros s bs. split; [now apply (blocks_complete (len s))|apply blocks_sound]. Qed.
  Theorem parse_markdown_blocks : forall s d, parse_markdown cfg s = Ok [] d <-> blocks cfg s (d_blocks d).
  Proof.
    intros s d. rewrite <- blocks_RB. destruct (many0_ok _ rec rec_block_eats rec_block_safe s) as (r & l & E & Er). apply block_err in Er; [|assumption..]. destruct (tail_ok r Er) as (a & X).
    assert (P : parse_markdown cfg s = Ok [] (Document (concat l))).
    { rewrite parse_markdown_unfold by exact Hcustom. fold rec. unfold p_document, pmap, bind at 1. unfold terminated, value, pmap, bind at 1. rewrite E. unfold bind at 1. rewrite X. reflexivity. }
    rewrite P. split.
    - intro Q. injection Q as <-. exists r, l. auto.
    - intros (r' & l' & E' & Ed). rewrite E in E'. injection E' as <- <-. destruct d as [bs]. cbn in Ed. now subst bs.
  Qed.
End Doc.
