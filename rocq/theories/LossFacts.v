(** Proof of C92: every rule of the grammar (C69, C70) keeps the letters of what it reads. *)
From Coq Require Import String Lia.
From Verif Require Import SpecParser Nom ParserInline ParserInlineFacts ParserBlock ParserTotal SyntaxDoc SpecInline SpecBlock SpecShape ShapeFacts CharFacts SpecLoss.
Import ListNotations.
Open Scope list_scope.

Notation L := letters.
Lemma l_app : forall a b, L (a ++ b) = L a ++ L b.
Proof. intros. apply filter_app. Qed.
Lemma l_none : forall s, Forall (fun c => letter c = false) s -> L s = [].
Proof. intros s H. induction H as [|c s E _ IH]; [reflexivity|]. unfold letters in *. cbn [filter]. now rewrite E. Qed.
Lemma l_all : forall f s, (forall c, f c = true -> letter c = false) -> all f s -> L s = [].
Proof. intros f s H A. apply l_none. eapply Forall_impl; [|exact A]. exact H. Qed.
Lemma l_cons : forall c s, letter c = false -> L (c :: s) = L s.
Proof. intros c s H. unfold letters. cbn [filter]. now rewrite H. Qed.
Lemma l_same : forall c s t, L s = L t -> L (c :: s) = L (c :: t).
Proof. intros c s t H. unfold letters in *. cbn [filter]. now rewrite H. Qed.
Lemma l_rep : forall n c, letter c = false -> L (rep n c) = [].
Proof. intros n c H. apply l_none. unfold rep. induction n; cbn [repeat]; constructor; assumption. Qed.
Lemma l_nil : L [] = [].
Proof. reflexivity. Qed.
Lemma l_in : forall l c, In c l -> L l = [] -> letter c = false.
Proof.
  intros l c I E. destruct (letter c) eqn:X; [|reflexivity]. assert (J : In c (L l)) by (apply filter_In; now split). rewrite E in J. destruct J.
Qed.
Lemma l_gap : forall c, is_gap c = true -> letter c = false.
Proof. intros c H. apply existsb_exists in H as (x & I & E). apply N.eqb_eq in E. subst. eapply l_in; [exact I|reflexivity]. Qed.
Lemma l_space : forall c, is_space c = true -> letter c = false.
Proof. intros c H. apply orb_prop in H as [H|H]; apply N.eqb_eq in H; subst; reflexivity. Qed.
Lemma l_white : forall c, is_whitespace c = true -> letter c = false.
Proof.
  intros c H. unfold letter. rewrite H. cbn [negb]. rewrite Bool.andb_false_r, Bool.orb_false_r.
  destruct (is_alpha c) eqn:X; [|reflexivity]. exfalso. unfold is_alpha, is_upper, is_lower, is_whitespace in *.
  repeat match goal with H : orb _ _ = true |- _ => apply orb_prop in H as [H|H] | H : andb _ _ = true |- _ => apply andb_prop in H as [? ?] end;
  repeat match goal with H : (_ <=? _)%N = true |- _ => apply N.leb_le in H | H : (_ =? _)%N = true |- _ => apply N.eqb_eq in H end; unfold char in *; lia.
Qed.
Lemma l_eol : forall e, is_eol e -> L e = [].
Proof. intros e [->| ->]; reflexivity. Qed.
Lemma l_end : forall m r, line_end m r -> L m = L r.
Proof. intros m r H. destruct H as [e r E|]; [|reflexivity]. now rewrite l_app, (l_eol _ E). Qed.
Lemma l_gaps : forall w, all is_gap w -> L w = [].
Proof. intros w. apply l_all. exact l_gap. Qed.
Lemma l_spaces : forall w, all is_space w -> L w = [].
Proof. intros w. apply l_all. exact l_space. Qed.
Lemma l_whites : forall w, all is_whitespace w -> L w = [].
Proof. intros w. apply l_all. exact l_white. Qed.
Ltac lsimp := repeat first [rewrite l_app | rewrite l_rep by reflexivity | rewrite l_cons by reflexivity | rewrite l_nil | rewrite app_nil_r | rewrite <- app_assoc | progress cbn [lit app optional]].

Lemma l_label : forall raw t, label_text raw t -> L raw = L t.
Proof. intros raw t H. induction H as [|s t _ IH|c s t _ _ _ IH]; [reflexivity| |now apply l_same]. rewrite !l_cons by reflexivity. exact IH. Qed.
Lemma l_bracket : forall s t r, bracket_at s t r -> L s = L t ++ L r.
Proof. intros s t r (raw & -> & H & _). apply l_label in H. lsimp. change (lit "[" ++ raw ++ lit "]" ++ r) with (91%N :: raw ++ 93%N :: r). lsimp. now rewrite H. Qed.
Lemma l_angle : forall a b, angle_text a b -> L a = L b.
Proof. intros a b H. induction H as [|c s t _ _ IH|c s t _ _ _ IH]; [reflexivity| |now apply l_same]. rewrite l_cons by reflexivity. now apply l_same. Qed.
Lemma l_destination : forall s d r, destination_at s d r -> L s = L d ++ L r.
Proof.
  intros s d r H. destruct H as [raw d r H|d r _ _ _|d _].
  - apply l_angle in H. change (lit "<" ++ raw ++ lit ">" ++ r) with (60%N :: raw ++ 62%N :: r). lsimp. now rewrite H.
  - lsimp. reflexivity.
  - lsimp. reflexivity.
Qed.
Lemma l_title : forall c a b, title_text c a b -> L a = L b.
Proof. intros c a b H. induction H as [|x s t _ IH|x s t _ _ _ IH]; [reflexivity| |now apply l_same]. rewrite l_cons by reflexivity. now apply l_same. Qed.
Lemma l_title_at : forall s t r, title_at s t r -> L s = L t ++ L r.
Proof.
  intros s t r (o & c & raw & I & T & ->). apply l_title in T.
  destruct I as [E|[E|[E|[]]]]; injection E as <- <-; lsimp; now rewrite T.
Qed.
Lemma l_tail : forall s x r, link_tail_at s x r -> L s = L (fst x) ++ L (optional (snd x)) ++ L r.
Proof.
  intros s [d t] r (w1 & s1 & s2 & s3 & w3 & -> & G1 & D & T & -> & G3). cbn [fst snd] in *. apply l_destination in D. apply l_gaps in G1, G3.
  change (lit "(" ++ w1 ++ s1) with (40%N :: w1 ++ s1). change (lit ")" ++ r) with (41%N :: r) in *.
  lsimp. rewrite G1, D. cbn [app]. f_equal.
  destruct T as [[-> <-]|(w2 & m & t' & -> & -> & G2 & T)]; cbn [optional].
  - lsimp. now rewrite G3.
  - apply l_gaps in G2. apply l_title_at in T. lsimp. rewrite G2, T. lsimp. now rewrite G3.
Qed.
Lemma l_norm : forall a b, code_norm a b -> L a = L b.
Proof. intros a b H. induction H as [|s t _ IH|s t _ IH|c s t _ _ _ IH]; [reflexivity| | |now apply l_same]; now rewrite !l_cons by reflexivity. Qed.
Lemma l_content : forall a b, code_content a b -> L a = L b.
Proof. intros a b (t & N & [[-> _]|[-> _]]); apply l_norm in N; rewrite N; [|reflexivity]. lsimp. reflexivity. Qed.

Section Loss.
  Variable cfg : config.
  Hypothesis Hk : keeps_all cfg.
  Hypothesis Hup : sane_upper cfg.
  Definition Q (c : char) : Prop := c <> ch "&".
  Notation QS := (Forall Q).
  Lemma Hc : custom_ok cfg.
  Proof. destruct Hk as (_ & _ & E1 & E2). split; congruence. Qed.
  Lemma no_entity : forall s v r, entity_at (html_entities cfg) s v r -> QS s -> False.
  Proof. intros s v r H HQ. destruct H; cbn [lit app] in HQ; inversion HQ as [|? ? X]; now elim X. Qed.
  Lemma l_run : forall s v r, run_of cfg s v r -> L s = L v ++ L r.
  Proof. intros s v r H. induction H as [s _|c s t r _ _ IH]; [reflexivity|]. unfold letters in *. cbn [filter]. destruct (letter c); now rewrite IH. Qed.
  Lemma l_chunk : forall s v r, chunk cfg s v r -> QS s -> L s = L v ++ L r.
  Proof.
    intros s v r [E|[[_ E]|[_ [_ [N E]]]]] H; [|now apply no_entity in E|now apply l_run in E].
    destruct E as [c r E]. rewrite l_cons by reflexivity. change (c :: r) with ([c] ++ r). apply l_app.
  Qed.
  Lemma l_chunks : forall s l r, chunks cfg s l r -> QS s -> L s = L (concat l) ++ L r.
  Proof.
    intros s l r H. induction H as [|s v m l r C _ IH]; intros HQ; [reflexivity|]. cbn [concat].
    pose proof (q_chunk_rest Q cfg _ _ _ C HQ) as HQ'. apply l_chunk in C; [|assumption]. rewrite C, (IH HQ'). now lsimp.
  Qed.
  Definition piece_raw (p : piece) : str :=
    match p with
    | PAutolink s | PFootnote s | PCode s | PWord s | PText s | PEmph _ s | PStrike s => s
    | PLink text d t => text ++ d ++ optional t
    | PReference text label => text ++ optional label
    | PImage d t a => a ++ d ++ optional t
    | PBreak | PCustom _ => []
    end.
  Lemma l_piece : forall s p r, first_of (inline_rules cfg) s p r -> QS s -> L s = L (piece_raw p) ++ L r /\ behavior_of cfg p = Parse /\ forall l, p <> PCustom l.
  Proof.
    intros s p r H HQ. apply first_in in H as (R & I & H). unfold inline_rules, element_rules in I. cbn [app In] in I.
    pose proof Hk as (K & _ & CI & _). repeat (apply Forall_cons_iff in K; destruct K as [? K]). clear K.
    assert (KP : forall A (b : behavior A), keeps b -> b <> Ignore -> b = Parse) by (intros A b [E|E] N; [exact E|now elim N]).
    repeat (destruct I as [<-|I]; [unfold on in H; try match type of H with _ /\ _ => destruct H as [? H] end|]); try contradiction;
      (split; [|split; [inversion H; subst; cbn [behavior_of]; try reflexivity; try congruence; apply KP; assumption|intros ? ->; inversion H; subst; try congruence]]).
    - destruct H as [s u r [-> _]]. cbn [piece_raw]. change (lit "<" ++ u ++ lit ">" ++ r) with (60%N :: u ++ 62%N :: r). now lsimp.
    - destruct H as [s text m d t r B T]. apply l_bracket in B. apply l_tail in T. cbn [fst snd piece_raw] in *. rewrite B, T. now lsimp.
    - destruct H as [l r _ _]. cbn [piece_raw]. change (lit "[^" ++ l ++ lit "]" ++ r) with (91%N :: 94%N :: l ++ 93%N :: r). now lsimp.
    - destruct H as [s text m label r B T|s text r B|s text r B _ _]; apply l_bracket in B; cbn [piece_raw].
      + apply l_bracket in T. rewrite B, T. now lsimp.
      + rewrite B. now lsimp.
      + rewrite B. now lsimp.
    - destruct H as [e r E|n e r _ E]; apply l_eol in E; cbn [piece_raw]; lsimp; now rewrite E.
    - destruct H as [a d t m r _ T]. apply l_tail in T. cbn [fst snd piece_raw] in *. change (lit "![" ++ a ++ lit "]" ++ m) with (33%N :: 91%N :: a ++ 93%N :: m). lsimp. now rewrite T.
    - destruct H as [n raw s c r (-> & _) C]. apply l_content in C. cbn [piece_raw]. assert (X : L (ticks n) = []) by (apply l_rep; reflexivity). lsimp. rewrite X, C. reflexivity.
    - destruct H. cbn [piece_raw]. change (c :: t ++ r) with ((c :: t) ++ r). apply l_app.
    - destruct H as [m n s text r I _ D _]. destruct D as (m' & -> & _). cbn [piece_raw]. assert (X : letter m = false) by (eapply l_in; [exact I|reflexivity]). lsimp. now rewrite !(l_rep _ _ X).
    - destruct H as [text r _ _ _]. cbn [piece_raw]. change (lit "~~" ++ text ++ lit "~~" ++ r) with (126%N :: 126%N :: text ++ 126%N :: 126%N :: r). now lsimp.
    - destruct H. congruence.
    - destruct H as [s l r _ C]. now apply l_chunks in C.
  Qed.

  Lemma says_two : forall a b v w, says_inlines a v -> says_inlines b w -> says_inlines (a ++ b) (v ++ w).
  Proof. intros a b v w H. revert b w. induction a as [|i a IH] in v, H |- *; intros b w H'; inversion H; subst; [exact H'|]. cbn [app]. rewrite <- app_assoc. constructor; auto. Qed.
  Lemma says_split : forall a b w, says_inlines (a ++ b) w -> exists v1 v2, w = v1 ++ v2 /\ says_inlines a v1 /\ says_inlines b v2.
  Proof.
    intros a. induction a as [|i a IH]; intros b w H; [now exists [], w; repeat constructor|]. cbn [app] in H. inversion H as [|? ? v u S T]; subst.
    apply IH in T as (v1 & v2 & -> & T1 & T2). exists (v ++ v1), v2. rewrite app_assoc. repeat constructor; assumption.
  Qed.
  Lemma says_one : forall i w, says_inline i w -> says_inlines [i] w.
  Proof. intros i w H. rewrite <- (app_nil_r w). now repeat constructor. Qed.
  Lemma says_joins : forall l l' w, joins_to l l' -> says_inlines l w -> says_inlines l' w.
  Proof.
    intros l l' w J. induction J as [|l m n [a s t b] J IH]; intros H; [assumption|]. apply IH.
    apply says_split in H as (v1 & v2 & -> & A & B). apply says_two; [assumption|].
    inversion B as [|? ? x y X Y]; subst. inversion Y as [|? ? x' y' X' Y']; subst. inversion X; subst. inversion X'; subst. rewrite app_assoc. constructor; [constructor|assumption].
  Qed.
  Definition good_i (l : list inline) (s : str) : Prop := exists w, says_inlines l w /\ L w = L s.
  Lemma inline_loss :
    (forall p i, builds cfg p i -> piece_texts Q p -> exists w, says_inline i w /\ L w = L (piece_raw p)) /\
    (forall p o, yields cfg p o -> (forall l, p <> PCustom l) -> behavior_of cfg p = Parse -> piece_texts Q p -> good_i o (piece_raw p)) /\
    (forall s l, pieces cfg s l -> QS s -> good_i l s) /\
    (forall s l, reads cfg s l -> QS s -> good_i l s).
  Proof.
    unfold good_i. apply inline_mut; cbn [piece_raw piece_texts optional].
    - intros u _. eexists. split; [constructor|reflexivity].
    - intros text d t c _ IH T. destruct (IH T) as (w & W & E). eexists. split; [constructor; exact W|]. lsimp. now rewrite E.
    - intros l _. eexists. split; [constructor|reflexivity].
    - intros text label a b _ IA _ IB [T T']. destruct (IA T) as (w & W & E). destruct (IB T') as (v & V & F). eexists. split; [apply says_reference; [exact W|exact V]|]. lsimp. now rewrite E, F.
    - intros text a _ IA [T _]. destruct (IA T) as (w & W & E). exists w. split; [now apply says_short|]. now rewrite app_nil_r.
    - intros _. eexists. split; [constructor|reflexivity].
    - intros d t a _. eexists. split; [constructor|reflexivity].
    - intros u _. eexists. split; [constructor|reflexivity].
    - intros u _. eexists. split; [constructor|reflexivity].
    - intros text c _ IH T. destruct (IH T) as (w & W & E). exists w. split; [now constructor|exact E].
    - intros text c _ IH T. destruct (IH T) as (w & W & E). exists w. split; [now constructor|exact E].
    - intros text c _ IH T. destruct (IH T) as (w & W & E). exists w. split; [constructor; apply says_one; now constructor|exact E].
    - intros text c _ IH T. destruct (IH T) as (w & W & E). exists w. split; [now constructor|exact E].
    - intros u _. eexists. split; [constructor|reflexivity].
    - intros p i _ IH _ B T. destruct (IH T) as (w & W & E). rewrite B. cbn [outcome]. exists w. split; [now apply says_one|exact E].
    - intros l H. now elim (H l).
    - intros _. exists []. split; [constructor|reflexivity].
    - intros s p r o l F _ Hy _ IH HQ. pose proof (q_piece Q cfg Hc _ _ _ F HQ) as [T T']. destruct (l_piece _ _ _ F HQ) as (E & B & N).
      destruct (Hy N B T) as (v & V & E1). destruct (IH T') as (w & W & E2). exists (v ++ w). split; [now apply says_two|]. rewrite l_app, E, E1, E2. reflexivity.
    - intros s l l' _ IH J _ HQ. destruct (IH HQ) as (w & W & E). exists w. split; [|exact E]. eapply says_joins; eassumption.
  Qed.
  Lemma reads_loss : forall s l, reads cfg s l -> QS s -> good_i l s.
  Proof. apply inline_loss. Qed.

  (** ** Blocks *)
  Lemma l_join : forall l, L (join [c_nl] l) = L (concat l).
  Proof.
    induction l as [|x l IH]; [reflexivity|]. cbn [join concat]. destruct l as [|y l]; [cbn [concat]; now rewrite app_nil_r|]. lsimp. cbn [concat] in *. rewrite IH. now lsimp.
  Qed.
  Lemma l_plain_line : forall s v r, plain_line s v r -> L s = L v ++ L r.
  Proof. intros s v r (m & -> & _ & _ & E). apply l_end in E. now rewrite l_app, E. Qed.
  Lemma l_text_line : forall s v r, text_line s v r -> L s = L v ++ L r.
  Proof. intros s v r (m & -> & _ & _ & E & _). apply l_end in E. now rewrite l_app, E. Qed.
  Lemma l_blank_line : forall s v r, blank_line s v r -> L s = L v ++ L r /\ L v = [].
  Proof.
    intros s v r (-> & w & m & E & W & X). split; [apply l_app|]. apply (f_equal L) in E. rewrite !l_app in E. rewrite (l_spaces _ W), (l_end _ _ X) in E. cbn [app] in E.
    assert (Y := f_equal (@List.length char) E). rewrite app_length in Y. apply length_zero_iff_nil. lia.
  Qed.
  Lemma l_strip : forall k s m, strip k s m -> L s = L m.
  Proof. intros k s m (j & -> & _). now lsimp. Qed.
  Lemma l_repeated : forall A (R : rule A) (f : A -> str), (forall s x r, R s x r -> L s = L (f x) ++ L r) ->
    forall s l r, repeated R s l r -> L s = L (concat (map f l)) ++ L r.
  Proof. intros A R f H s l r X. induction X as [s _|s a m l r X _ IH]; [reflexivity|]. rewrite (H _ _ _ X), IH. cbn [map concat]. now lsimp. Qed.
  Lemma l_lines : forall (R : rule str), (forall s x r, R s x r -> L s = L x ++ L r) ->
    forall s l r, repeated R s l r -> L s = L (join [c_nl] l) ++ L r.
  Proof. intros R H s l r X. rewrite l_join. apply (l_repeated _ _ (fun x => x) H) in X. now rewrite map_id in X. Qed.
  Lemma l_blanks : forall s l r, repeated blank_line s l r -> L s = L r /\ L (concat l) = [].
  Proof.
    intros s l r X. induction X as [s _|s a m l r X _ IH]; [now split|]. apply l_blank_line in X as [X1 X2]. destruct IH as [I1 I2]. rewrite X1, X2, I1. cbn [concat app]. split; [reflexivity|]. now rewrite l_app, X2, I2.
  Qed.
  Lemma l_blank : forall s, SpecParser.blank s -> L s = [].
  Proof. intros s H. induction H as [|c s [->| ->] _ IH|s _ IH|s _ IH]; [reflexivity|..]; now lsimp. Qed.
  Lemma l_code_line : forall s v r, code_line s v r -> L s = L v ++ L r.
  Proof. intros s v r (m & [->| ->] & H); apply l_plain_line in H; now lsimp. Qed.
  Lemma l_fenced_line : forall k f n s v r, fenced_line k f n s v r -> L s = L v ++ L r.
  Proof. intros k f n s v r (_ & m & S & H). apply l_strip in S. apply l_plain_line in H. congruence. Qed.
  Lemma l_fence_end : forall f n s r, In f (lit "`~") -> fence_end f n s r -> L s = L r.
  Proof. intros f n s r I (k & j & m & -> & _ & _ & E). apply l_end in E. assert (X : letter f = false) by (eapply l_in; [exact I|reflexivity]). lsimp. now rewrite (l_rep _ _ X). Qed.
  Lemma l_quote_line : forall s v r, quote_line s v r -> L s = L v ++ L r.
  Proof. intros s v r (k & m & -> & _ & H). apply l_plain_line in H. now lsimp. Qed.
  Lemma l_digit : forall c v, digit 10 c v -> letter c = false.
  Proof.
    intros c v [H D]. assert (X : N.to_nat v < 10) by lia. remember (N.to_nat v) as n eqn:E. clear E H.
    do 10 (destruct n as [|n]; [destruct D as [D|D]; injection D as <-; reflexivity|]). lia.
  Qed.
  Lemma l_digits : forall ds n, numeral 10 ds n -> L ds = [].
  Proof. intros ds n H. induction H as [c v D|s n c v _ IH D]; apply l_digit in D; [now rewrite (l_cons _ _ D)|]. now rewrite l_app, IH, (l_cons _ _ D). Qed.
  Lemma l_marker : forall s k r, marker_at s k r -> L s = L r.
  Proof.
    intros s k r H. destruct H as [ds n c r N _ I|c b r I].
    - apply l_digits in N. assert (X : letter c = false) by (eapply l_in; [exact I|reflexivity]). rewrite l_app, N, (l_cons _ _ X). reflexivity.
    - destruct I as [E|[E|[E|[]]]]; injection E as <- _; now lsimp.
  Qed.
  Lemma l_task : forall s t r, task_at s t r -> exists w, says_task (Some t) w /\ L s = L w ++ L r.
  Proof.
    intros s t r H. destruct H as [c r I|r].
    - exists [c]. split; [now constructor|]. destruct I as [<-|[<-|[]]]; lsimp; reflexivity.
    - exists []. split; [constructor|reflexivity].
  Qed.
  Lemma l_start : forall s k n t v r, item_start s (k, n, t, v) r -> exists w, says_task t w /\ L s = L w ++ L v ++ L r.
  Proof.
    intros s k n t v r H. apply first_in in H as (R & I & H). destruct I as [<-|[<-|[<-|[]]]].
    - inversion H as [k0 s0 kind w m r0 _ M W E]; subst. apply l_marker in M. apply l_end in E. exists []. split; [constructor|]. lsimp. rewrite M. lsimp. now rewrite (l_spaces _ W), E.
    - inversion H as [k0 s0 kind j t0 m1 m r0 _ M _ T E]; subst. apply l_marker in M. apply l_end in E. apply l_task in T as (w & W & T). exists w. split; [exact W|]. lsimp. rewrite M. lsimp. now rewrite T, E.
    - inversion H as [k0 s0 kind j m1 t0 m v0 r0 _ M _ _ T X]; subst. apply l_marker in M. apply l_plain_line in X. destruct T as [(x & -> & T)|(-> & -> & _)].
      + apply l_task in T as (w & W & T). exists w. split; [exact W|]. lsimp. rewrite M. lsimp. rewrite T. lsimp. now rewrite X.
      + exists []. split; [constructor|]. lsimp. rewrite M. lsimp. now rewrite X.
  Qed.
  Lemma l_item_line : forall k n s v r, item_line k n s v r -> L s = L v ++ L r.
  Proof.
    intros k n s v r (_ & _ & H). apply first_in in H as (R & I & H). destruct I as [<-|[<-|[]]].
    - destruct H as (m & S & H). apply l_strip in S. apply l_text_line in H. congruence.
    - destruct H as (bl & m & v' & _ & B & H & ->). apply l_blanks in B as [B1 B2]. apply l_text_line in H. rewrite B1. lsimp. now rewrite B2, H.
  Qed.
  Definition item_raw (x : list_kind * (option task_state * str)) (w : str) : Prop :=
    exists u, says_task (fst (snd x)) u /\ w = u ++ snd (snd x).
  Lemma l_item : forall s x r, item_at s x r -> exists w, item_raw x w /\ L s = L w ++ L r.
  Proof.
    intros s x r [s' k n t v m ls r' S H]. apply l_start in S as (w & W & S). apply (l_repeated _ _ (fun x => x) (l_item_line k n)) in H. rewrite map_id in H.
    exists (w ++ join [c_nl] (v :: ls)). split; [now exists w|]. rewrite S, H. lsimp. rewrite l_join. cbn [concat]. now lsimp.
  Qed.
  Inductive items_raw : list (option task_state * str) -> str -> Prop :=
  | raw_nil : items_raw [] []
  | raw_cons : forall t u x l w, says_task t u -> items_raw l w -> items_raw ((t, x) :: l) (u ++ x ++ w).
  Lemma l_the_items : forall s l r, repeated item_at s l r -> exists w, items_raw (map snd l) w /\ L s = L w ++ L r.
  Proof.
    intros s l r H. induction H as [s _|s a m l r X _ (w & W & IH)]; [exists []; split; [constructor|reflexivity]|].
    apply l_item in X as (v & (u & U & ->) & E). destruct a as (k & t & x). cbn [fst snd map] in *. exists (u ++ x ++ w). split; [now constructor|]. rewrite E, IH. now lsimp.
  Qed.
  Lemma l_html : forall s v r, html_at s v r -> L s = L v ++ L r.
  Proof.
    intros s v r H. assert (E : s = v ++ r); [|subst; apply l_app].
    apply first_in in H as (R & I & H). destruct I as [<-|[<-|[<-|[<-|[<-|[<-|[<-|[]]]]]]]].
    - now destruct H as (t & x & b & e & _ & E & _).
    - now destruct H as (b & _ & E & _).
    - now destruct H as (b & _ & E & _).
    - now destruct H as (c & _ & b & _ & E & _).
    - now destruct H as (b & _ & E & _).
    - now destruct H as (o & t & x & b & e & m & _ & E & _).
    - now destruct H as (t & x & b & e & _ & E & _).
  Qed.
  Lemma l_footnote_line : forall s v r, footnote_line s v r -> L s = L v ++ L r.
  Proof. intros s v r (m & -> & H). apply l_text_line in H. now lsimp. Qed.
  Lemma l_one_gap : forall w, one_gap w -> L w = [].
  Proof. intros w (a & e & b & -> & A & B & E). lsimp. rewrite (l_spaces _ A), (l_spaces _ B). destruct E as [->|E]; [reflexivity|]. now rewrite (l_eol _ E). Qed.
  Lemma l_definition_title : forall s t r, definition_title s t r -> L s = L t ++ L r.
  Proof. intros s t r (w & m & -> & _ & G & T). apply l_one_gap in G. apply l_title_at in T. now rewrite l_app, G. Qed.
  Lemma l_cell_text : forall s t r, cell_text s t r -> L s = L t ++ L r.
  Proof. intros s t r H. induction H as [s _|s t r _ IH|c s t r _ _ _ _ IH]; [reflexivity|lsimp; exact IH|]. unfold letters in *. cbn [filter]. destruct (letter c); cbn [app]; now rewrite IH. Qed.
  Lemma l_cell : forall s t r, cell_at s t r -> L s = L t ++ L r.
  Proof. intros s t r [_ H]. now apply l_cell_text. Qed.
  Lemma l_align : forall s a r, align_at s a r -> L s = L ((fun _ => []) a) ++ L r.
  Proof.
    intros s a r (w & n & w' & _ & W & W' & H). apply l_spaces in W, W'. cbn [app].
    destruct H as [[_ ->]|[[_ ->]|[[_ ->]|[_ ->]]]]; lsimp; rewrite ?W, ?W'; reflexivity.
  Qed.
  Lemma l_cells : forall A (R : rule A) (f : A -> str), (forall s x r, R s x r -> L s = L (f x) ++ L r) ->
    forall s l r, cells R s l r -> L s = L (concat (map f l)) ++ L r.
  Proof.
    intros A R f H s l r X. induction X as [s x m m' r X E Y|s x m l r X _ IH]; apply H in X; rewrite X; cbn [map concat]; lsimp.
    - f_equal. apply l_end in Y. rewrite <- Y. destruct E as [->| ->]; now lsimp.
    - now rewrite IH.
  Qed.
  Lemma l_row : forall A (R : rule A) (f : A -> str), (forall s x r, R s x r -> L s = L (f x) ++ L r) ->
    forall s l r, row R s l r -> L s = L ((fun l => concat (map f l)) l) ++ L r.
  Proof. intros A R f H s l r (k & m & -> & _ & C). apply (l_cells _ _ _ H) in C. now lsimp. Qed.
  Lemma l_break_line : forall s h r, r_break_line s h r -> L s = L r.
  Proof. intros s h r H. destruct H as [k c n w m r _ _ I W E]. apply l_end in E. assert (X : letter c = false) by (eapply l_in; [exact I|reflexivity]). lsimp. now rewrite (l_rep _ _ X), (l_spaces _ W), E. Qed.
  Lemma l_underline : forall s h r, underline s h r -> L s = L r.
  Proof.
    intros s h r (k & c & n & w & m & -> & _ & _ & I & W & E). apply l_end in E.
    assert (X : letter c = false) by (destruct I as [Y|[Y|[]]]; injection Y as <- _; reflexivity). lsimp. now rewrite (l_rep _ _ X), (l_spaces _ W), E.
  Qed.
  Lemma l_paragraph_line : forall s v r, paragraph_line cfg s v r -> L s = L v ++ L r.
  Proof. intros s v r (_ & m & S & H). apply l_strip in S. apply l_text_line in H. congruence. Qed.
  Lemma l_trimmed : forall s u, trimmed s u -> L s = L u.
  Proof. intros s u (a & b & -> & A & B & _). lsimp. now rewrite (l_whites _ A), (l_whites _ B), app_nil_r. Qed.
  (** the name of an alert *)
  Notation up := (fun c => if (c <? 128)%N then [if is_lower c then (c - 32)%N else c] else upper_table cfg c).
  Lemma up_cases : forall c, (up c <> [] /\ Forall (fun x => ~ In x (lit "[!]")) (up c)) \/ (up c = [c] /\ In c (lit "[!]")).
  Proof.
    intros c. cbv beta. destruct (c <? 128)%N eqn:E; [|left; apply Hup; now apply N.ltb_ge in E].
    destruct (is_lower c) eqn:W.
    - left. split; [discriminate|]. constructor; [|constructor]. unfold is_lower in W. apply andb_prop in W as [W1 W2]. apply N.leb_le in W1, W2. change (lit "[!]") with [91%N; 33%N; 93%N]; intros [X|[X|[X|[]]]]; unfold char in *; lia.
    - destruct (in_dec N.eq_dec c (lit "[!]")) as [X|X]; [right; now split|left]. split; [discriminate|now constructor].
  Qed.
  Lemma up_head : forall u x m, In x (lit "[!]") -> upper_text cfg u = x :: m -> exists u', u = x :: u' /\ upper_text cfg u' = m.
  Proof.
    intros [|c u] x m I E; [discriminate|]. unfold upper_text in E. cbn [flat_map] in E. destruct (up_cases c) as [[N F]|[X _]]; cbv beta in *.
    - destruct (if (c <? 128)%N then _ else _) as [|y l]; [now elim N|]. injection E as <- _. inversion F as [|? ? Y]. now elim Y.
    - rewrite X in E. injection E as <- <-. now exists u.
  Qed.
  Lemma up_nil : forall u, upper_text cfg u = [] -> u = [].
  Proof.
    intros [|c u] E; [reflexivity|]. unfold upper_text in E. cbn [flat_map] in E. apply app_eq_nil in E as [E _]. destruct (up_cases c) as [[N _]|[X _]]; cbv beta in *; [now elim N|]. rewrite X in E. discriminate.
  Qed.
  Lemma up_last : forall v name, upper_text cfg v = name ++ lit "]" -> Forall (fun x => ~ In x (lit "[!]")) name ->
    exists n, v = n ++ lit "]" /\ upper_text cfg n = name.
  Proof.
    induction v as [|c v IH]; intros name E F; [now destruct name|]. destruct name as [|y name].
    - apply up_head in E as (v' & E & X); [|right; right; now left]. apply up_nil in X. subst. exists []. split; [exact E|reflexivity].
    - unfold upper_text in E. cbn [flat_map] in E. fold (upper_text cfg v) in E. destruct (up_cases c) as [[N G]|[X I]]; cbv beta in *.
      + remember (if (c <? 128)%N then _ else _) as g eqn:Hg. apply app_eq_app in E as (l & [[E1 E2]|[E1 E2]]).
        * destruct l as [|z l].
          -- rewrite app_nil_r in E1. cbn [app] in E2. symmetry in E2. apply (IH []) in E2 as (n & -> & X); [|constructor]. apply up_nil in X. subst n.
             exists [c]. split; [reflexivity|]. unfold upper_text. cbn [flat_map]. rewrite <- Hg, app_nil_r. exact E1.
          -- exfalso. injection E2 as <- _. rewrite E1 in G. apply Forall_app in G as [_ G]. inversion G as [|? ? Y]. apply Y. right; right; now left.
        * rewrite E1 in F. apply Forall_app in F as [_ F]. apply IH in E2 as (n & -> & X); [|exact F]. exists (c :: n). split; [reflexivity|].
          unfold upper_text. cbn [flat_map]. fold (upper_text cfg n). now rewrite <- Hg, X, E1.
      + rewrite X in E. injection E as -> _. inversion F as [|? ? Y]. now elim Y.
  Qed.
  Lemma l_name : forall u name, upper_text cfg u = lit "[!" ++ name ++ lit "]" -> Forall (fun x => ~ In x (lit "[!]")) name ->
    exists n, upper_text cfg n = name /\ L u = L n.
  Proof.
    intros u name E F. change (lit "[!" ++ name ++ lit "]") with (91%N :: 33%N :: name ++ lit "]") in E.
    apply up_head in E as (u1 & -> & E); [|now left]. apply up_head in E as (u2 & -> & E); [|right; now left]. apply up_last in E as (n & -> & E); [|exact F].
    exists n. split; [exact E|]. lsimp. reflexivity.
  Qed.
  Lemma alert_name : forall name ty, alert_of_name name ty -> Forall (fun x => ~ In x (lit "[!]")) name.
  Proof.
    assert (W : forall x, is_alnum x = true \/ x = ch "_" -> ~ In x (lit "[!]")).
    { intros x [H|H] [E|[E|[E|[]]]]; subst; discriminate. }
    intros name ty [I|((c & t & -> & A & T) & _)].
    - repeat (destruct I as [I|I]; [injection I as <- _; repeat (constructor; [apply W; left; reflexivity|]); constructor|]). destruct I.
    - constructor; [apply W; left; unfold is_alnum; now rewrite A|]. eapply Forall_impl; [|exact T]. exact W.
  Qed.

  Definition shape_raw (h : shape) (w : str) : Prop :=
    match h with
    | HCode (CodeBlock k t) => w = match k with Fenced i => optional i | Indented => [] end ++ t
    | HHeading _ t | HText t | HQuote t | HHtml t | HLine t => w = t
    | HBreak | HCustom _ => w = []
    | HAlert ty t => exists name n, alert_of_name name ty /\ upper_text cfg n = name /\ w = n ++ t
    | HList _ items => items_raw items w
    | HFootnote label t => w = label ++ t
    | HDefinition label d t => w = label ++ d ++ optional t
    | HTable header rows _ => w = concat header ++ concat (map (@concat char) rows)
    end.
  Lemma l_shape : forall s h r, first_of (block_rules cfg) s h r -> (exists w, shape_raw h w /\ L s = L w ++ L r) /\ block_behavior cfg h = Parse /\ forall l, h <> HCustom l.
  Proof.
    intros s h r H. apply first_in in H as (R & I & H). unfold block_rules in I. cbn [In] in I.
    pose proof Hk as (_ & K & _ & CB). repeat (apply Forall_cons_iff in K; destruct K as [? K]). clear K.
    assert (KP : forall A (b : behavior A), keeps b -> b <> Ignore -> b = Parse) by (intros A b [E|E] N; [exact E|now elim N]).
    repeat (destruct I as [<-|I]; [unfold on in H; try match type of H with _ /\ _ => destruct H as [? H] end|]); try contradiction.

    - split; [|split; [inversion H as [|? ? ? F]; subst; [|inversion F; subst]; cbn [block_behavior]; now apply KP|intros ? ->; inversion H as [|? ? ? F]; subst; inversion F]].
      inversion H as [? ls ? N RP|? ? ? F]; subst; cbn [shape_raw].
      + eexists. split; [reflexivity|]. now apply (l_lines _ l_code_line) in RP.
      + inversion F as [k f n m0 info m1 ls m2 ? _ IF _ _ IN RP FE]; subst. eexists. split; [reflexivity|].
        apply l_fence_end in FE; [|exact IF]. apply (l_lines _ (l_fenced_line k f n)) in RP. assert (X : letter f = false) by (eapply l_in; [exact IF|reflexivity]).
        lsimp. rewrite (l_rep _ _ X). cbn [app]. destruct IN as [[-> E]|(v & -> & E)]; [apply l_end in E|apply l_text_line in E]; rewrite E, RP, FE; reflexivity.
    - split; [|split; [inversion H; subst; cbn [block_behavior]; now apply KP|intros ? ->; inversion H]].
      inversion H as [n w m0 v ? _ _ (_ & W & _) _ T]; subst. eexists. split; [reflexivity|]. apply l_text_line in T. lsimp. now rewrite (l_spaces _ W), T.
    - split; [|split; [inversion H; subst; cbn [block_behavior]; now apply KP|intros ? ->; inversion H]].
      inversion H as [? ls m0 l ? N RP U|? ls ? N RP _]; subst; (eexists; split; [reflexivity|]); apply (l_lines _ l_paragraph_line) in RP; [|exact RP]. apply l_underline in U. now rewrite RP, U.
    - split; [|split; [inversion H; subst; cbn [block_behavior]; now apply KP|intros ? ->; inversion H]].
      exists []. split; [inversion H; reflexivity|]. now apply l_break_line in H.
    - split; [|split; [inversion H; subst; cbn [block_behavior]; rewrite (KP _ (b_github_alert cfg)) by assumption; reflexivity|intros ? ->; inversion H]].
      inversion H as [? l ls ? u name ty RP T U AL _]; subst. cbn [shape_raw]. destruct (l_name _ _ U (alert_name _ _ AL)) as (n & N1 & N2).
      exists (n ++ join [c_nl] ls). split; [now exists name, n|]. apply (l_lines _ l_quote_line) in RP. rewrite RP. rewrite l_join. cbn [concat]. lsimp. rewrite l_join. now rewrite (l_trimmed _ _ T), N2.
    - split; [|split; [inversion H; subst; cbn [block_behavior]; now apply KP|intros ? ->; inversion H]].
      inversion H as [? ls ? N RP _]; subst. eexists. split; [reflexivity|]. now apply (l_lines _ l_quote_line) in RP.
    - split; [|split; [inversion H; subst; cbn [block_behavior]; now apply KP|intros ? ->; inversion H]].
      inversion H as [? k x items ? RP]; subst. cbn [shape_raw]. now apply l_the_items in RP.
    - split; [|split; [inversion H; subst; cbn [block_behavior]; now apply KP|intros ? ->; inversion H]].
      inversion H as [k m0 v ? _ HT]; subst. eexists. split; [reflexivity|]. apply l_html in HT. now lsimp.
    - split; [|split; [inversion H; subst; cbn [block_behavior]; now apply KP|intros ? ->; inversion H]].
      inversion H as [k label m0 m1 v m2 ls ? _ _ _ S X RP]; subst. cbn [shape_raw]. eexists. split; [reflexivity|].
      apply l_strip in S. apply l_text_line in X. apply (l_repeated _ _ (fun x => x) l_footnote_line) in RP. rewrite map_id in RP.
      rewrite !l_app, l_join. cbn [concat]. rewrite l_app, S, X, RP. rewrite l_rep by reflexivity. now lsimp.
    - split; [|split; [inversion H; subst; cbn [block_behavior]; now apply KP|intros ? ->; inversion H]].
      inversion H as [k s0 label w m0 d m1 t m2 ? _ B G D T X]; subst. cbn [shape_raw]. eexists. split; [reflexivity|].
      apply l_bracket in B. apply l_one_gap in G. apply l_destination in D. apply l_end in X. lsimp. rewrite B. lsimp. rewrite G, D. cbn [app]. do 2 f_equal.
      destruct T as [(x & -> & T)|(-> & -> & _)]; [apply l_definition_title in T; now rewrite T, X|now rewrite X].
    - split; [|split; [inversion H; subst; cbn [block_behavior]; now apply KP|intros ? ->; inversion H]].
      inversion H as [? header m1 al m2 rows ? R1 R2 _ RP]; subst. cbn [shape_raw]. eexists. split; [reflexivity|].
      apply (l_row _ _ (fun x => x) l_cell) in R1. apply (l_row _ _ (fun _ => []) l_align) in R2. apply (l_repeated _ _ _ (l_row _ _ (fun x => x) l_cell)) in RP.
      cbv beta in *. rewrite map_id in R1. rewrite R1, R2, RP. 
      match goal with |- _ ++ L ?X ++ _ = _ => assert (Z1 : X = []) by (clear; induction al; [reflexivity|exact IHal]); rewrite Z1 end. lsimp. cbn [app].
      do 4 f_equal. clear. induction rows as [|x l IH]; [reflexivity|]. cbn [map]. now rewrite map_id, IH.
    - inversion H. congruence.
    - split; [|split; [inversion H; subst; cbn [block_behavior]; now apply KP|intros ? ->; inversion H]].
      inversion H as [? m0 v ? S X]; subst. eexists. split; [reflexivity|]. apply l_strip in S. apply l_text_line in X. congruence.
  Qed.

  (** no text is empty *)
  Lemma chunk_ne : forall s v r, chunk cfg s v r -> QS s -> v <> [].
  Proof. intros s v r [E|[[_ E]|[_ [_ [N E]]]]] H; [inversion E; discriminate|now apply no_entity in E|exact N]. Qed.
  Lemma piece_ne : forall s p r i, first_of (inline_rules cfg) s p r -> QS s -> builds cfg p i -> i <> IText [].
  Proof.
    intros s p r i H HQ B ->. inversion B as [| | | | | | | |w| | | | |t]; subst; apply first_in in H as (R & I & H); unfold inline_rules, element_rules in I; cbn [app In] in I;
      repeat (destruct I as [<-|I]; [unfold on in H; try match type of H with _ /\ _ => destruct H as [? H] end; inversion H; subst|]); try contradiction; try discriminate.
    match goal with C : chunks cfg _ ?x _, N : ?x <> [], E : concat ?x = [] |- _ => destruct C as [|? ? ? ? ? C _]; [now elim N|apply chunk_ne in C; [|exact HQ]; apply app_eq_nil in E as [E _]; contradiction] end.
  Qed.
  Lemma pieces_ne : forall s l, pieces cfg s l -> QS s -> Forall (fun i => i <> IText []) l.
  Proof.
    intros s l H. induction H as [|s p r o l F Y _ IH]; intros HQ; [constructor|]. apply Forall_app. pose proof (q_piece Q cfg Hc _ _ _ F HQ) as [_ T'].
    split; [|now apply IH]. destruct (l_piece _ _ _ F HQ) as (_ & B & N). inversion Y as [? i BI|]; subst; [|exfalso; eapply N; reflexivity]. rewrite B. constructor; [|constructor]. eapply piece_ne; eassumption.
  Qed.
  Lemma reads_ne : forall s l, reads cfg s l -> QS s -> Forall (fun i => i <> IText []) l.
  Proof.
    intros s l H HQ. destruct H as [s l l' P J _]. apply pieces_ne in P; [|exact HQ]. clear HQ. induction J as [|l m n [a x y b] _ IH]; [assumption|]. apply IH.
    apply Forall_app in P as [P1 P2]. apply Forall_app. split; [exact P1|]. inversion P2 as [|? ? N P3]; subst. inversion P3; subst. constructor; [|assumption]. destruct x; [now elim N|discriminate].
  Qed.
  Lemma row_loss : forall n l c, row_cells cfg n l c -> Forall QS l -> exists v lost, says_cells c v /\ L (concat l) = L (v ++ lost) /\
    (List.length l <= n -> lost = []) /\ (In [IText []] c -> lost = []).
  Proof.
    intros n l c H. induction H as [l|n c _ IH|n t u i l c T RD _ IH]; intros HQ.
    - exists [], (concat l). split; [constructor|]. split; [reflexivity|]. split; [|intros []]. intros X. destruct l; [reflexivity|cbn in X; lia].
    - destruct (IH HQ) as (v & lost & S & E & A & B). assert (lost = []) by (apply A; cbn; lia). exists v, lost. split; [|split; [exact E|split; intros _; assumption]].
      change v with ([] ++ v). constructor; [apply says_one; constructor|exact S].
    - inversion HQ as [|? ? Q1 Q2]; subst. destruct (IH Q2) as (v & lost & S & E & A & B). pose proof (q_trimmed Q _ _ T Q1) as QU. pose proof (reads_ne _ _ RD QU) as NE. destruct (reads_loss _ _ RD QU) as (w & W & EW).
      exists (w ++ v), lost. split; [now constructor|]. split; [cbn [concat]; lsimp; rewrite l_app in E; now rewrite (l_trimmed _ _ T), EW, E|].
      split; [intros X; apply A; cbn in X; lia|]. intros [->|X]; [|now apply B]. inversion NE as [|? ? N]. now elim N.
  Qed.
  Lemma rows_loss : forall n rows l, Forall2 (row_cells cfg n) rows l -> Forall (Forall QS) rows -> exists w, says_rows l w /\ L (concat (map (@concat char) rows)) = L w.
  Proof.
    intros n rows l H. induction H as [|x y xs ys RX _ IH]; intros HQ; [exists []; split; [constructor|reflexivity]|].
    inversion HQ as [|? ? Q1 Q2]; subst. destruct (IH Q2) as (w & W & E). destruct (row_loss _ _ _ RX Q1) as (v & lost & S & E' & _ & B).
    exists (v ++ lost ++ w). split; [now constructor|]. cbn [map concat]. rewrite l_app, E', E. now lsimp.
  Qed.
  Lemma says_blocks_two : forall a b v w, says_blocks cfg a v -> says_blocks cfg b w -> says_blocks cfg (a ++ b) (v ++ w).
  Proof. intros a b v w H. revert b w. induction a as [|i a IH] in v, H |- *; intros b w H'; inversion H; subst; [exact H'|]. cbn [app]. rewrite <- app_assoc. constructor; auto. Qed.
  Lemma block_loss :
    (forall h b, makes cfg h b -> shape_texts Q h -> forall s, shape_raw h s -> exists w, says_block cfg b w /\ L w = L s) /\
    (forall l l', item_blocks cfg l l' -> Forall (fun x => QS (snd x)) l -> forall s, items_raw l s -> exists w, says_items cfg l' w /\ L w = L s) /\
    (forall h o, makes_all cfg h o -> (forall l, h <> HCustom l) -> block_behavior cfg h = Parse -> shape_texts Q h -> forall s, shape_raw h s -> exists w, says_blocks cfg o w /\ L w = L s) /\
    (forall s bs, blocks cfg s bs -> QS s -> exists w, says_blocks cfg bs w /\ L w = L s).
  Proof.
    apply block_mut; cbn [shape_texts shape_raw].
    - intros [[|i] t] _ s ->; eexists; (split; [constructor|reflexivity]).
    - intros k t l RD T s ->. destruct (reads_loss _ _ RD T) as (w & W & E). exists w. split; [now constructor|exact E].
    - intros t l RD T s ->. destruct (reads_loss _ _ RD T) as (w & W & E). exists w. split; [now constructor|exact E].
    - intros _ s ->. exists []. split; [constructor|reflexivity].
    - intros ty t bs _ IH T s (name & n & AL & U & ->). destruct (IH T) as (w & W & E). exists (n ++ w). split; [econstructor; eassumption|]. lsimp. now rewrite E.
    - intros t bs _ IH T s ->. destruct (IH T) as (w & W & E). exists w. split; [now constructor|exact E].
    - intros k items l _ IH T s H. destruct (IH T _ H) as (w & W & E). exists w. split; [now constructor|exact E].
    - intros t _ s ->. exists t. split; [constructor|reflexivity].
    - intros label t bs _ IH T s ->. destruct (IH T) as (w & W & E). exists (label ++ w). split; [now constructor|]. lsimp. now rewrite E.
    - intros label d t l RD T s ->. destruct (reads_loss _ _ RD T) as (w & W & E). exists (w ++ d ++ optional t). split; [now constructor|]. lsimp. now rewrite E.
    - intros header rows al h l RH RL [H1 H2] s ->. destruct (row_loss _ _ _ RH H1) as (v & lost & S & E & A & _). rewrite (A (le_n _)), app_nil_r in E.
      destruct (rows_loss _ _ _ RL H2) as (w & W & E'). exists (v ++ w). split; [now constructor|]. lsimp. now rewrite E, E'.
    - intros t l RD T s ->. destruct (reads_loss _ _ RD T) as (w & W & E). exists w. split; [now constructor|exact E].
    - intros _ s H. inversion H. exists []. split; [constructor|reflexivity].
    - intros t text bs items l _ IH _ IHl T s H. inversion T as [|? ? T1 T2]; subst. inversion H as [|? u ? ? w U W]; subst. destruct (IH T1) as (v & V & E). destruct (IHl T2 _ W) as (x & X & E').
      exists (u ++ v ++ x). split; [now constructor|]. lsimp. now rewrite E, E'.
    - intros h b _ IH _ B T s H. destruct (IH T _ H) as (w & W & E). rewrite B. exists (w ++ []). split; [constructor; [exact W|constructor]|now rewrite app_nil_r].
    - intros l H. now elim (H l).
    - intros s B _. exists []. split; [constructor|]. now rewrite (l_blank _ B).
    - intros s bl m h r o l RP F _ Hm _ IH HQ. pose proof (q_blanks Q _ _ _ RP HQ) as HQ'. apply l_blanks in RP as [RP _].
      pose proof (q_shape Q ltac:(discriminate) cfg Hc _ _ _ F HQ') as (T & _ & T'). destruct (l_shape _ _ _ F) as ((x & X & EX) & B & N).
      destruct (Hm N B T _ X) as (v & V & E). destruct (IH T') as (w & W & E'). exists (v ++ w). split; [now apply says_blocks_two|]. rewrite RP, EX. lsimp. now rewrite E, E'.
  Qed.
End Loss.

(** without bars no tables *)
Section Bars.
  Variable cfg : config.
  Hypothesis Hk : keeps_all cfg.
  Definition NB (c : char) : Prop := c <> ch "|".
  Definition no_tables (bs : list block) : Prop := Forall (fun b => forall t, b <> BTable t) (flat_map block_preorder bs).
  Lemma nt_one : forall b c, block_preorder b = b :: flat_map block_preorder c -> (forall t, b <> BTable t) -> no_tables c -> no_tables [b].
  Proof. intros b c E H C. unfold no_tables. cbn [flat_map]. rewrite app_nil_r, E. now constructor. Qed.
  Lemma nt_table : forall s header rows al r, r_table s (HTable header rows al) r -> Forall NB s -> False.
  Proof.
    intros s header rows al r H HQ. inversion H as [? ? m1 ? m2 ? ? (k & m & -> & _) _ _ _]; subst. apply Forall_app in HQ as [_ HQ]. inversion HQ as [|? ? X]. now elim X.
  Qed.
  Lemma behaviour_kept : forall s h r, first_of (block_rules cfg) s h r -> block_behavior cfg h = Parse /\ forall l, h <> HCustom l.
  Proof.
    intros s h r H. apply first_in in H as (R & I & H). unfold block_rules in I. cbn [In] in I.
    pose proof Hk as (_ & K & _ & CB). repeat (apply Forall_cons_iff in K; destruct K as [? K]). clear K.
    assert (KP : forall A (b : behavior A), keeps b -> b <> Ignore -> b = Parse) by (intros A b [E|E] N; [exact E|now elim N]).
    repeat (destruct I as [<-|I]; [unfold on in H; try match type of H with _ /\ _ => destruct H as [? H] end; inversion H; subst;
      try match goal with X : r_fenced _ _ _ |- _ => inversion X; subst end; try congruence; (split; [|discriminate]); cbn [block_behavior];
      first [apply KP; assumption | rewrite (KP _ (b_github_alert cfg)) by assumption; reflexivity]|]). destruct I.
  Qed.
  Lemma no_tables_mut :
    (forall h b, makes cfg h b -> shape_texts NB h -> (forall x y z, h <> HTable x y z) -> no_tables [b]) /\
    (forall l l', item_blocks cfg l l' -> Forall (fun x => Forall NB (snd x)) l -> no_tables (flat_map li_blocks l')) /\
    (forall h o, makes_all cfg h o -> (forall l, h <> HCustom l) -> block_behavior cfg h = Parse -> shape_texts NB h -> (forall x y z, h <> HTable x y z) -> no_tables o) /\
    (forall s bs, blocks cfg s bs -> Forall NB s -> no_tables bs).
  Proof.
    apply block_mut; cbn [shape_texts].
    - intros c _ _. apply (nt_one _ []); [reflexivity|discriminate|constructor].
    - intros k t l _ _ _. apply (nt_one _ []); [reflexivity|discriminate|constructor].
    - intros t l _ _ _. apply (nt_one _ []); [reflexivity|discriminate|constructor].
    - intros _ _. apply (nt_one _ []); [reflexivity|discriminate|constructor].
    - intros ty t bs _ IH T _. apply (nt_one _ bs); [reflexivity|discriminate|now apply IH].
    - intros t bs _ IH T _. apply (nt_one _ bs); [reflexivity|discriminate|now apply IH].
    - intros k items l _ IH T _. apply (nt_one _ (flat_map li_blocks l)); [|discriminate|now apply IH].
      cbn [block_preorder l_items]. f_equal. clear. induction l as [|x l IH]; [reflexivity|]. cbn [flat_map]. rewrite flat_map_app. now f_equal.
    - intros s _ _. apply (nt_one _ []); [reflexivity|discriminate|constructor].
    - intros label t bs _ IH T _. apply (nt_one _ bs); [reflexivity|discriminate|now apply IH].
    - intros label d t l _ _ _. apply (nt_one _ []); [reflexivity|discriminate|constructor].
    - intros header rows al h l _ _ _ N. now elim (N header rows al).
    - intros t l _ _ _. apply (nt_one _ []); [reflexivity|discriminate|constructor].
    - intros _. constructor.
    - intros t text bs items l _ IH _ IHl T. inversion T; subst. cbn [flat_map li_blocks]. unfold no_tables. rewrite flat_map_app. apply Forall_app. split; [now apply IH|now apply IHl].
    - intros h b _ IH _ B T N. rewrite B. now apply IH.
    - intros l H. now elim (H l).
    - intros s _ _. constructor.
    - intros s bl m h r o l RP F _ Hm _ IH HQ. apply (q_blanks NB) in RP; [|exact HQ].
      pose proof (q_shape NB ltac:(discriminate) cfg (Hc cfg Hk) _ _ _ F RP) as (T & _ & T').
      assert (N : forall x y z, h <> HTable x y z).
      { intros x y z ->. apply first_in in F as (R & I & F). unfold block_rules in I. cbn [In] in I.
        repeat (destruct I as [<-|I]; [unfold on in F; try match type of F with _ /\ _ => destruct F as [? F] end;
          first [eapply nt_table; eassumption | inversion F; subst; try match goal with X : r_fenced _ _ _ |- _ => inversion X end; fail]|]). destruct I. }
      assert (X : block_behavior cfg h = Parse /\ forall l, h <> HCustom l).
      { exact (behaviour_kept _ _ _ F). }
      unfold no_tables. rewrite flat_map_app. apply Forall_app. split; [|now apply IH]. now apply Hm; try apply X.
  Qed.
End Bars.
