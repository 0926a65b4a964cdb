(** Inlines of the fragment are read back from their source. *)
From Coq Require Import String Lia.
From Verif Require Import SyntaxFacts SyntaxInline SyntaxInline2 SyntaxDef RoundStart.
From Verif Require Export RoundWrap.
Import ListNotations.
Open Scope list_scope.
Local Notation len := (@List.length _).

(** ** First characters of the rules *)
Lemma hd_autolink : forall c s p r, r_autolink (c :: s) p r -> c = ch "<".
Proof. intros c s p r H. inversion H as [? ? ? [E _]]; subst. now injection E as ->. Qed.
Lemma hd_bracket : forall c s t r, bracket_at (c :: s) t r -> c = ch "[".
Proof. intros c s t r (raw & E & _). now injection E as ->. Qed.
Lemma hd_link : forall c s p r, r_link (c :: s) p r -> c = ch "[".
Proof. intros c s p r H. inversion H; subst. eapply hd_bracket. eassumption. Qed.
Lemma hd_footnote : forall c s p r, r_footnote (c :: s) p r -> c = ch "[" /\ begins_with (ch "^") s.
Proof. intros c s p r H. inversion H as [l r' N F E]; subst. split; [reflexivity|]. now eexists. Qed.
Lemma hd_reference : forall c s p r, r_reference (c :: s) p r -> c = ch "[".
Proof. intros c s p r H. inversion H; subst; eapply hd_bracket; eassumption. Qed.
Lemma hd_break : forall c s p r, r_break (c :: s) p r -> c = ch "\" \/ c = c_sp /\ begins_with c_sp s.
Proof.
  intros c s p r H. inversion H as [e r' Ee E|n e r' L Ee E]; subst; [now left|]. right.
  destruct n as [|[|n]]; [lia|lia|]. cbn in E. injection E as <- <-. split; [reflexivity|now eexists].
Qed.
Lemma hd_image : forall c s p r, r_image (c :: s) p r -> c = ch "!" /\ begins_with (ch "[") s.
Proof. intros c s p r H. inversion H; subst. split; [reflexivity|now eexists]. Qed.
Lemma hd_code : forall c s p r, r_code (c :: s) p r -> c = ch "`".
Proof. intros c s p r H. inversion H as [n raw s' x r' (E & L & _)]; subst. destruct n; [lia|]. now injection E as ->. Qed.
Lemma hd_word : forall c s p r, r_word (c :: s) p r -> is_alpha c = true /\ exists t r', s = t ++ r' /\ all word_char t /\ In (ch "_") t.
Proof. intros c s p r H. inversion H; subst. split; [assumption|eauto]. Qed.
Lemma hd_emphasis : forall punct c s p r, r_emphasis punct (c :: s) p r -> c = ch "*" \/ c = ch "_".
Proof.
  intros punct c s p r H. inversion H as [m n s' text r' Im Ln D _]; subst. destruct D as (x & E & _). destruct n; [lia|]. injection E as -> _. cbn in Im. intuition.
Qed.
Lemma hd_strike : forall c s p r, r_strike (c :: s) p r -> c = ch "~".
Proof. intros c s p r H. now inversion H; subst. Qed.

Section Read.
Variables (entities : str -> option str) (punct : char -> bool) (upper : char -> str).
Local Notation cfg := (default_config entities punct upper).
Local Notation ireads := (SpecInline.reads cfg).
Local Notation ipieces := (SpecInline.pieces cfg).
Local Notation rules := (inline_rules cfg).

Lemma no_element : forall c s, plain_char c -> (c = ch "!" -> ~ begins_with (ch "[") s) -> (c = c_sp -> ~ begins_with c_sp s) ->
  (forall t r, s = t ++ r -> all word_char t -> ~ In (ch "_") t) -> Forall (fun R => ~ applies R (c :: s)) (element_rules cfg).
Proof.
  intros c s Hc H1 H2 H3. assert (N : forall d, In d special_chars -> c <> d) by (intros d I ->; exact (Hc I)).
  unfold element_rules. repeat apply Forall_cons; [..|apply Forall_nil]; intros (p & r & H); try (apply proj2 in H).
  - apply hd_autolink in H. subst. apply (N (ch "<")); [cbn; tauto|reflexivity].
  - apply hd_link in H. subst. apply (N (ch "[")); [cbn; tauto|reflexivity].
  - apply hd_footnote in H as [-> _]. apply (N (ch "[")); [cbn; tauto|reflexivity].
  - apply hd_reference in H. subst. apply (N (ch "[")); [cbn; tauto|reflexivity].
  - apply hd_break in H as [->|[-> B]]; [apply (N (ch "\")); [cbn; tauto|reflexivity]|]. exact (H2 eq_refl B).
  - apply hd_image in H as [-> B]. exact (H1 eq_refl B).
  - apply hd_code in H. subst. apply (N (ch "`")); [cbn; tauto|reflexivity].
  - apply hd_word in H as (_ & t & r' & -> & F & I). exact (H3 t r' eq_refl F I).
  - apply hd_emphasis in H as [-> | ->]; [apply (N (ch "*"))|apply (N (ch "_"))]; try reflexivity; cbn; tauto.
  - apply hd_strike in H. subst. apply (N (ch "~")); [cbn; tauto|reflexivity].
Qed.
Lemma entity_head : forall c s v r, entity_at entities (c :: s) v r -> c = ch "&".
Proof. intros c s v r H. inversion H; reflexivity. Qed.
Lemma no_special : forall c s, plain_char c -> Forall (fun R => ~ applies R (c :: s)) (element_rules cfg) -> ~ special cfg (c :: s).
Proof.
  intros c s Hc F [H|(v & r & H)].
  - apply Exists_exists in H as (R & I & H). rewrite Forall_forall in F. exact (F R I H).
  - apply entity_head in H. subst. apply Hc. cbn. tauto.
Qed.
Lemma first_app : forall A (l1 l2 : list (rule A)) s p r, Forall (fun R => ~ applies R s) l1 -> first_of l2 s p r -> first_of (l1 ++ l2) s p r.
Proof. intros A l1 l2 s p r F H. induction F as [|R l1 N F IH]; [exact H|]. cbn [app first_of]. right. now split. Qed.
Lemma first_special : forall s p r, first_of rules s p r -> (forall t, p <> PText t) -> (forall l, p <> PCustom l) -> special cfg s.
Proof.
  intros s p r H N1 N2. left. unfold inline_rules in H. induction (element_rules cfg) as [|R l IH]; cbn [app first_of] in H.
  - exfalso. destruct H as [H|[_ [[_ H]|[_ []]]]]; inversion H; subst; [eapply N2|eapply N1]; reflexivity.
  - destruct H as [H|[_ H]]; [apply Exists_cons_hd; now exists p, r|apply Exists_cons_tl; now apply IH].
Qed.

(** ** Texts *)
Lemma word_prefix : forall t r u m, all word_char t -> t ++ r = u ++ m -> (forall c, begins_with c m -> word_char c = false) -> exists r', u = t ++ r'.
Proof.
  induction t as [|x t IH]; intros r u m F E H; [exists u; reflexivity|]. inversion F; subst. destruct u as [|y u].
  - exfalso. cbn in E. specialize (H x). rewrite H in *; [discriminate|]. rewrite <- E. now eexists.
  - cbn in E. injection E as -> E. destruct (IH r u m) as (r' & ->); auto. now exists r'.
Qed.
Definition after_text (t m : str) : Prop :=
  (last_is (ch "!") t -> ~ begins_with (ch "[") m) /\ (last_is c_sp t -> ~ begins_with c_sp m) /\ (forall c, begins_with c m -> word_char c = false).
Lemma text_run : forall t m, Forall plain_char t -> (forall a b x y, t = a ++ x :: y :: b -> is_whitespace x = true -> is_whitespace y = false) ->
  after_text t m -> (m = [] \/ special cfg m) -> run_of cfg (t ++ m) t m.
Proof.
  induction t as [|c t IH]; intros m F D (H1 & H2 & H3) Hm; [now apply run_end|]. inversion F as [|? ? Hc F']; subst. cbn [app]. apply run_char.
  - apply no_special; [exact Hc|]. apply no_element; [exact Hc|..].
    + intros -> B. destruct t as [|d t]; [apply H1; [now exists []|exact B]|]. destruct B as (u & E). injection E as -> _. inversion F' as [|? ? X _]; subst. apply X. cbn. tauto.
    + intros -> B. destruct t as [|d t]; [apply H2; [now exists []|exact B]|]. destruct B as (u & E). injection E as -> _. specialize (D [] t c_sp c_sp eq_refl eq_refl). discriminate.
    + intros t' r E W I. destruct (word_prefix t' r t m) as (r' & ->); auto. apply Forall_app in F' as [F' _]. rewrite Forall_forall in F'. apply (F' _ I). cbn. tauto.
  - apply IH; [exact F'| |split; [|split]|exact Hm].
    + intros a b x y E. apply (D (c :: a) b x y). now rewrite E.
    + intros (u & ->). apply H1. now exists (c :: u).
    + intros (u & ->). apply H2. now exists (c :: u).
    + exact H3.
Qed.
Lemma plain_escape : forall c s v r, plain_char c -> ~ escape_at (c :: s) v r.
Proof. intros c s v r Hc H. inversion H; subst. apply Hc. cbn. tauto. Qed.
Lemma plain_entity : forall c s v r, plain_char c -> ~ entity_at entities (c :: s) v r.
Proof. intros c s v r Hc H. apply entity_head in H. subst. apply Hc. cbn. tauto. Qed.
Lemma text_first : forall t m, plain_words t -> after_text t m ->
  (m = [] \/ special cfg m /\ (forall v r, ~ escape_at m v r) /\ (forall v r, ~ entity_at entities m v r)) -> first_of rules (t ++ m) (PText t) m.
Proof.
  intros t m (N & F & W & D) A Hm. destruct t as [|c t]; [congruence|]. inversion F as [|? ? Hc F']; subst.
  assert (R : run_of cfg ((c :: t) ++ m) (c :: t) m) by (apply text_run; auto; destruct Hm as [->|[Hm _]]; auto).
  unfold inline_rules. apply first_app.
  - inversion R as [|? ? ? ? X _]; subst. apply Forall_forall. intros R' I A'. apply X. left. apply Exists_exists. eauto.
  - cbn [first_of app]. right. split; [intros (p & r & H); inversion H; discriminate|]. left. split; [discriminate|].
    replace (PText (c :: t)) with (PText (concat [c :: t])) by (cbn; now rewrite app_nil_r). apply R_text; [discriminate|].
    apply chunks_more with m.
    + right. right. split; [intros v' r'; now apply plain_escape|]. split; [intros v' r'; now apply plain_entity|]. split; [discriminate|exact R].
    + apply chunks_end. intros v r [H|[[_ H]|(_ & _ & Nv & H)]].
      * destruct Hm as [->|(_ & E & _)]; [inversion H|exact (E v r H)].
      * destruct Hm as [->|(_ & _ & E)]; [inversion H|exact (E v r H)].
      * destruct Hm as [->|(Sp & _)]; inversion H; subst; try congruence.
Qed.

(** ** Elements *)
Ltac skip := right; split; [let p := fresh "p" in let r := fresh "r" in let H := fresh "H" in intros (p & r & H); try (apply proj2 in H)|].
Ltac kill H := first [apply hd_autolink in H|apply hd_link in H|apply hd_footnote in H as [H _]|apply hd_reference in H|apply hd_break in H as [H|[H _]]|apply hd_image in H as [H _]
  |apply hd_code in H|apply hd_word in H as [H _]|apply hd_emphasis in H as [H|H]|apply hd_strike in H]; discriminate H.
Ltac skip_head := skip; [let H := lazymatch goal with H : _ |- False => H end in kill H|].
Ltac here := left; split; [discriminate|].

Lemma autolink_first : forall u r, uri u \/ email u -> first_of rules (lit "<" ++ u ++ lit ">" ++ r) (PAutolink u) r.
Proof. intros u r H. cbn [inline_rules element_rules first_of app]. here. constructor. now split. Qed.
Lemma break_first : forall r, first_of rules (lit "  " ++ [c_nl] ++ r) PBreak r.
Proof. intros r. cbn [inline_rules element_rules first_of app]. do 4 skip_head. here. apply (R_spaces 2 [10%N] r); [lia|now left]. Qed.
Lemma brackets_at : forall s r, in_brackets s -> bracket_at (lit "[" ++ s ++ lit "]" ++ r) s r.
Proof.
  intros s r (T & N1 & N2 & L). exists s. split; [reflexivity|]. split; [|split; [exact L|]].
  - clear T L. induction s as [|c s IH]; [constructor|]. apply label_char; [intros ->; apply N1; now left|intros ->; destruct N2; now left|].
    apply IH; [intro I; apply N1; now right|intro I; apply N2; now right].
  - destruct T as [(c & t & -> & W) _]. apply Exists_cons_hd. split; intros ->; discriminate.
Qed.
Lemma bare_stop : forall c r, bare_char c = false -> c <> ch "\" -> c <> ch "(" -> bare_stops (c :: r).
Proof. intros c r H1 H2 H3. split; [exact H1|]. split; [exact H2|]. intros (a & t & E & _). injection E as E _. contradiction. Qed.
Lemma target_tail : forall d t r, plain_target d t -> link_tail_at (lit "(" ++ d ++ title_source t ++ lit ")" ++ r) (d, t) r.
Proof.
  intros d t r (Hd & Hb & _ & Ht). exists [], (d ++ title_source t ++ lit ")" ++ r), (title_source t ++ lit ")" ++ r), (lit ")" ++ r), [].
  split; [reflexivity|]. split; [constructor|]. cbn [fst snd]. split; [|split; [|split; [reflexivity|constructor]]].
  - apply dest_bare; [exact Hd|exact Hb|]. destruct t as [t|]; apply bare_stop; (reflexivity || discriminate).
  - destruct t as [t|]; [right|now left]. destruct Ht as (_ & N1 & N2). exists [c_sp], (34%N :: t ++ 34%N :: lit ")" ++ r), t. split; [reflexivity|]. split; [unfold title_source, quoted_title; rewrite <- !app_assoc; reflexivity|]. split; [repeat constructor|].
    exists 34%N, 34%N, t. split; [now left|]. split; [|reflexivity]. clear Hd Hb. induction t as [|c t IH]; [constructor|]. apply title_char; [intros ->; apply N1; now left|intros ->; apply N2; now left|].
    apply IH; [intro I; apply N1; now right|intro I; apply N2; now right].
Qed.
Lemma link_first : forall c d t r, in_brackets c -> plain_target d t ->
  first_of rules (lit "[" ++ c ++ lit "](" ++ d ++ title_source t ++ lit ")" ++ r) (PLink c d t) r.
Proof.
  intros c d t r Hc Ht. cbn [inline_rules element_rules first_of app]. skip_head. here.
  eapply R_link; [apply (brackets_at c _ Hc)|]. now apply target_tail.
Qed.
Lemma image_first : forall a d t r, ~ In (ch "]") a -> plain_target d t ->
  first_of rules (lit "![" ++ a ++ lit "](" ++ d ++ title_source t ++ lit ")" ++ r) (PImage d t a) r.
Proof.
  intros a d t r Ha Ht. cbn [inline_rules element_rules first_of app]. do 5 skip_head. here.
  apply (R_image a d t (lit "(" ++ d ++ title_source t ++ lit ")" ++ r)); [exact Ha|now apply target_tail].
Qed.
Lemma link_needs_paren : forall s text m p r, bracket_at s text m -> r_link s p r -> begins_with (ch "(") m.
Proof.
  intros s text m p r Hb H. inversion H as [s' text' m' d t r' Hb' Ht]; subst. destruct (bracket_fun _ _ _ _ _ Hb Hb') as [_ <-].
  destruct Ht as (w1 & s1 & s2 & s3 & w3 & -> & _). now eexists.
Qed.
Lemma footnote_first : forall n r, n <> [] -> all is_alnum n -> ~ begins_with (ch "(") r -> first_of rules (lit "[^" ++ n ++ lit "]" ++ r) (PFootnote n) r.
Proof.
  intros n r N F Hr. cbn [inline_rules element_rules first_of app]. skip_head. skip.
  - inversion H as [s' text m d t r' Hb Ht E]; subst. destruct Hb as (raw & E & Hraw & _). cbn [lit app] in E. injection E as E.
    assert (A : forall c, In c (ch "^" :: n) -> c <> ch "]" /\ c <> ch "\").
    { intros c [<-|I]; [split; discriminate|]. unfold all in F. rewrite Forall_forall in F. specialize (F c I). split; intros ->; discriminate. }
    symmetry in E. apply (RoundStart.label_plain raw text Hraw (ch "^" :: n)) in E as (_ & E & _); [|intro I; now apply A in I as [I _]|intro I; now apply A in I as [_ I]].
    destruct Ht as (w1 & s1 & s2 & s3 & w3 & -> & _). apply Hr. rewrite <- E. now eexists.
  - here. now constructor.
Qed.
Lemma caret_no : forall c r p r', ~ begins_with (ch "^") c -> c <> [] -> ~ r_footnote (ch "[" :: c ++ r) p r'.
Proof. intros c r p r' H N X. apply hd_footnote in X as [_ (u & E)]. apply H. destruct c as [|x c]; [congruence|]. injection E as -> _. now eexists. Qed.
Lemma tight_ne : forall s, tight s -> s <> [].
Proof. intros s [(c & t & -> & _) _]. discriminate. Qed.
Lemma shortcut_first : forall c r, in_brackets c -> ~ begins_with (ch "^") c -> ~ begins_with (ch "(") r -> ~ begins_with (ch "[") r ->
  first_of rules (lit "[" ++ c ++ lit "]" ++ r) (PReference c None) r.
Proof.
  intros c r Hc Hx H1 H2. cbn [inline_rules element_rules first_of]. skip_head. skip.
  - apply H1. eapply link_needs_paren; [|exact H]. now apply brackets_at.
  - skip; [exact (caret_no c _ _ _ Hx (tight_ne c (proj1 Hc)) H)|]. here. apply R_shortcut; [now apply brackets_at| |].
    + intros l r' (raw & -> & _). apply H2. now eexists.
    + intros r' ->. apply H2. now eexists.
Qed.
Lemma reference_first : forall n c r, in_brackets n -> in_brackets c -> ~ begins_with (ch "^") c ->
  first_of rules (lit "[" ++ c ++ lit "][" ++ n ++ lit "]" ++ r) (PReference c (Some n)) r.
Proof.
  intros n c r Hn Hc Hx. cbn [inline_rules element_rules first_of]. pose proof (brackets_at c (lit "[" ++ n ++ lit "]" ++ r) Hc) as B. skip_head. skip.
  - apply (link_needs_paren _ _ _ _ _ B) in H as (u & E). discriminate.
  - skip; [exact (caret_no c _ _ _ Hx (tight_ne c (proj1 Hc)) H)|]. here. eapply R_full; [exact B|]. now apply brackets_at.
Qed.
Lemma code_first : forall s r, plain_code s -> ~ begins_with (ch "`") r -> first_of rules (lit "`" ++ s ++ lit "`" ++ r) (PCode s) r.
Proof.
  intros s r (N & (O1 & O2) & T & P) Hr. cbn [inline_rules element_rules first_of app]. do 6 skip_head. here.
  assert (Hb : forall a b, s = a ++ b -> b <> [] -> exists x u, b = x :: u /\ x <> 96%N /\ x <> 10%N /\ x <> 13%N).
  { intros a b -> Nb. destruct b as [|x u]; [congruence|]. exists x, u. assert (I : In x (a ++ x :: u)) by (apply in_or_app; right; now left).
    repeat split; intros ->; contradiction. }
  apply R_code with (n := 1) (raw := s).
  - split; [reflexivity|]. split; [lia|]. split; [exact N|]. split; [intros t ->; apply T; now left|]. split; [intros t ->; apply Hr; now eexists|].
    intros a b E Nb. destruct (Hb a b E Nb) as (x & u & -> & X1 & X2 & X3). split.
    + intros (r' & E' & _). injection E' as E' _. contradiction.
    + intros (e1 & w & e2 & r' & E' & I1 & _). destruct I1 as [<-|[<-|[]]]; injection E' as E' _; contradiction.
  - exists s. split.
    + clear N T P Hb. induction s as [|c s IH]; [constructor|]. apply code_char; [intros ->; apply O1; now left|intros ->; destruct O2; now left|].
      apply IH; [intro I; apply O1; now right|intro I; apply O2; now right].
    + right. split; [reflexivity|exact P].
Qed.
Lemma up_to_plain : forall (stop : str -> Prop) esc r n text, len text <= n -> (forall a b, text = a ++ b -> b <> [] -> ~ stop (b ++ r)) -> stop r -> ~ last_is (ch "\") text -> up_to esc stop text r.
Proof.
  intros stop esc r. induction n as [|n IH]; intros text L H Hr Nl.
  - destruct text; [now apply up_here|]. cbn in L. lia.
  - destruct text as [|x text]; [now apply up_here|].
    assert (Hx : ~ stop (x :: text ++ r)) by (apply (H [] (x :: text)); [reflexivity|discriminate]).
    assert (Ht : forall a b, text = a ++ b -> b <> [] -> ~ stop (b ++ r)) by (intros a b -> Nb; now apply (H (x :: a) b)).
    destruct (N.eq_dec x (ch "\")) as [->|Nx].
    + destruct text as [|d text]; [destruct Nl; now exists []|]. destruct (N.eq_dec d esc) as [->|Nd].
      * apply up_esc; [exact Hx|]. apply IH; [cbn in L; lia| |exact Hr|].
        -- intros a b -> Nb. now apply (H (ch "\" :: esc :: a) b).
        -- intros (u & ->). apply Nl. now exists (ch "\" :: esc :: u).
      * apply up_char; [exact Hx| |].
        -- intros [_ (u & E)]. injection E as E _. contradiction.
        -- apply IH; [cbn in L |- *; lia|exact Ht|exact Hr|]. intros (u & Eu). apply Nl. exists (ch "\" :: u). now rewrite Eu.
    + apply up_char; [exact Hx|now intros [? _]|]. apply IH; [cbn in L; lia|exact Ht|exact Hr|]. intros (u & ->). apply Nl. now exists (x :: u).
Qed.
Lemma emphasis_first : forall n s r, 1 <= n <= 3 -> tight s -> ~ begins_with (ch "*") s -> ~ last_is (ch "\") s ->
  (forall a b u, s = a ++ b -> b <> [] -> b ++ rep n (ch "*") ++ r <> rep n (ch "*") ++ u) -> run_may_close r ->
  first_of rules (rep n (ch "*") ++ s ++ rep n (ch "*") ++ r) (PEmph n s) r.
Proof.
  intros n s r Hn Ts Ns Nl Hs Hr. destruct n as [|n]; [lia|]. change (rep (S n) (ch "*") ++ ?x) with (ch "*" :: (rep n (ch "*") ++ x)) at 1.
  cbn [inline_rules element_rules first_of app]. do 8 skip_head. here.
  change (ch "*" :: (rep n (ch "*") ++ ?x)) with (rep (S n) (ch "*") ++ x).
  apply R_emphasis with (m := ch "*"); [now left|exact Hn| |].
  - exists (ch "*"). split; [reflexivity|]. split; [now eexists|]. split; [|split; [now apply tight_ne|]].
    + destruct Ts as [(c & t & -> & W) _]. eexists c, _. split; [reflexivity|]. split; [exact W|discriminate].
    + apply up_to_plain with (n := len s); [lia| |exists r; split; [reflexivity|]|exact Nl].
      * intros a b E Nb (u & X & _). exact (Hs a b u E Nb X).
      * intros c B. destruct (Hr c B) as [W|W]; [now left|right; now left].
  - intros n' text' r' L (m & E & _). destruct Ts as [(c & t & -> & W) _]. apply Ns. exists t. f_equal.
    cbn [app] in E. clear - E L. remember (S n) as k. revert E. generalize (t ++ rep k (ch "*") ++ r) (text' ++ rep n' (ch "*") ++ r'). intros x y E. clear Heqk n. revert n' L E. induction k as [|k IH]; intros n' L E.
    + destruct n' as [|n']; [lia|]. cbn in E. injection E as -> _. reflexivity.
    + destruct n' as [|n']; [lia|]. cbn in E. injection E as E. apply (IH n'); [lia|exact E].
Qed.
Lemma strike_first : forall s r, s <> [] -> ~ In (ch "~") s -> ~ last_is (ch "\") s -> ~ begins_with (ch "~") r ->
  first_of rules (lit "~~" ++ s ++ lit "~~" ++ r) (PStrike s) r.
Proof.
  intros s r N I Nl Hr. cbn [inline_rules element_rules first_of app]. do 9 skip_head. here. apply R_strike; [|exact N|].
  - intros (u & E). destruct s as [|c s]; [congruence|]. injection E as -> _. apply I. now left.
  - apply up_to_plain with (n := len s); [lia| |exists r; now split|exact Nl].
    intros a b -> Nb (u & E & _). destruct b as [|c b]; [congruence|]. injection E as -> _. apply I. apply in_or_app. right. now left.
Qed.

(** ** Sources *)
Lemma last_app : forall c a b, last_is c (a ++ b) -> last_is c b \/ b = [] /\ last_is c a.
Proof.
  intros c a b (t & E). destruct b as [|x b]; [right; split; [reflexivity|]; rewrite app_nil_r in E; now exists t|]. left.
  assert (N : x :: b <> []) by discriminate. destruct (exists_last N) as (u & d & E2). rewrite E2 in *. rewrite app_assoc in E. apply app_inj_tail in E as [_ ->]. now exists u.
Qed.
Lemma last_one : forall c d a, last_is c (a ++ [d]) -> c = d.
Proof. intros c d a (t & E). now apply app_inj_tail in E as [_ ->]. Qed.
Lemma rich_last : forall l, rich l -> ~ last_is (ch "\") (source l).
Proof.
  assert (K : forall i l, ~ last_is (ch "\") (source l) -> ~ last_is (ch "\") (source_of i) -> ~ last_is (ch "\") (source (i :: l))).
  { intros i l H1 H2 H. rewrite source_cons in H. apply last_app in H as [H|[_ H]]; contradiction. }
  assert (F : forall a d, d <> ch "\" -> ~ last_is (ch "\") (a ++ [d])) by (intros a d N H; apply last_one in H; congruence).
  induction 1 as [|t l H1 H2 IH2 H3 H4 H5|l H1 IH1 H2|s l H1 H2 IH2 H3|c l H1 IH1 H2 H3 H4 H5 IH5 H6|c l H1 IH1 H2 H3 H4 IH4 H5|c l H1 IH1 H2 H3 H4 IH4 H5|c l H1 IH1 H2 H3 H4 IH4 H5
    |d t c l H1 IH1 H2 H3 H4 IH4|d t a l H1 H2 H3 H4 IH4|u l H1 H2 IH2|n l H1 H2 H3 IH3 H4|c l H1 IH1 H2 H3 H4 IH4 H5|n c l H1 IH1 H2 H3 IH3 H4 H5 H6 H7 IH7]; try (apply K; [assumption|]).
  - intros (t & E). destruct t; discriminate.
  - intros (u & E). cbn in E. subst t. destruct H1 as (_ & P & _). apply Forall_app in P as [_ P]. inversion P as [|? ? X _]; subst. apply X. cbn. tauto.
  - apply (F (lit "  ")). discriminate.
  - cbn [source_of]. rewrite app_assoc. now apply F.
  - cbn [source_of]. rewrite app_assoc. now apply F.
  - cbn [source_of]. change (lit "**") with (lit "*" ++ lit "*") at 2. rewrite !app_assoc. now apply F.
  - cbn [source_of]. change (lit "**") with (lit "*" ++ lit "*") at 2. rewrite !app_assoc. now apply F.
  - cbn [source_of]. change (lit "~~") with (lit "~" ++ lit "~") at 2. rewrite !app_assoc. now apply F.
  - cbn [source_of]. rewrite !app_assoc. now apply F.
  - cbn [source_of]. rewrite !app_assoc. now apply F.
  - cbn [source_of]. rewrite !app_assoc. now apply F.
  - cbn [source_of]. rewrite !app_assoc. now apply F.
  - rewrite source_same_ref. rewrite !app_assoc. now apply F.
  - rewrite source_ref by congruence. rewrite !app_assoc. now apply F.
Qed.
Definition no_text (l : list inline) : Prop := forall t l', l <> IText t :: l'.
Lemma elem_head : forall l, rich l -> no_text l -> forall c, begins_with c (source l) -> In c (lit "`*~[!<") \/ c = c_sp /\ exists l', l = ILineBreak :: l'.
Proof.
  intros l H Nt c (u & E). destruct H; rewrite ?source_cons in E; rewrite ?source_same_ref in E; rewrite ?source_ref in E by congruence; cbn [source_of] in E; try discriminate E;
    try (injection E as <- _); try (left; cbn; tauto).
  - exfalso. eapply Nt. reflexivity.
  - right. split; [reflexivity|eauto].
Qed.
Lemma plain_no_head : forall s, (forall c, begins_with c s -> In c (lit " `*~[!<")) -> (forall v r, ~ escape_at s v r) /\ (forall v r, ~ entity_at entities s v r) /\ (forall c, begins_with c s -> word_char c = false).
Proof.
  intros s H. split; [|split].
  - intros v r X. inversion X; subst. specialize (H (ch "\") (ex_intro _ _ eq_refl)). cbn in H. intuition discriminate.
  - intros v r X. destruct s as [|c s]; [inversion X|]. apply entity_head in X. subst. specialize (H (ch "&") (ex_intro _ _ eq_refl)). cbn in H. intuition discriminate.
  - intros c B. specialize (H c B). cbn in H. repeat (destruct H as [<-|H]; [reflexivity|]). contradiction.
Qed.
Lemma merged_cons : forall i l, merged l -> (forall s, i = IText s -> no_text l) -> merged (i :: l).
Proof.
  intros i l M H a s t b E. destruct a as [|x a]; cbn [app] in E; injection E as E1 E2; [|exact (M a s t b E2)]. eapply H; [exact E1|exact E2].
Qed.
Lemma rich_reads : forall l, rich l -> ipieces (source l) l /\ merged l /\ (no_text l -> l <> [] -> special cfg (source l)).
Proof.
  assert (R : forall l, ipieces (source l) l -> merged l -> ireads (source l) l) by (intros l P M; eapply Reads; [exact P|apply joins_refl|exact M]).
  assert (K : forall i l p, (forall t, i <> IText t) -> (forall t, p <> PText t) -> (forall x, p <> PCustom x) -> behavior_of cfg p = Parse -> builds cfg p i -> ipieces (source l) l -> merged l ->
    first_of rules (source (i :: l)) p (source l) -> ipieces (source (i :: l)) (i :: l) /\ merged (i :: l) /\ (no_text (i :: l) -> i :: l <> [] -> special cfg (source (i :: l)))).
  { intros i l p N1 N2 N3 Hb B P M F. split; [|split].
    - change (i :: l) with ([i] ++ l) at 2. eapply P_more; [exact F| |exact P]. replace [i] with (outcome IEmpty (behavior_of cfg p) i) by (rewrite Hb; reflexivity). now constructor.
    - apply merged_cons; [exact M|]. intros s ->. now destruct (N1 s).
    - intros _ _. eapply first_special; eassumption. }
  induction 1 as [|t l H1 H2 (P2 & M2 & S2) H3 H4 H5|l H1 (P1 & M1 & S1) H2|s l H1 H2 (P2 & M2 & S2) H3|c l H1 (P1 & M1 & S1) H2 H3 H4 H5 (P5 & M5 & S5) H6|c l H1 (P1 & M1 & S1) H2 H3 H4 (P4 & M4 & S4) H5|c l H1 (P1 & M1 & S1) H2 H3 H4 (P4 & M4 & S4) H5|c l H1 (P1 & M1 & S1) H2 H3 H4 (P4 & M4 & S4) H5
    |d t c l H1 (P1 & M1 & S1) H2 H3 H4 (P4 & M4 & S4)|d t a l H1 H2 H3 H4 (P4 & M4 & S4)|u l H1 H2 (P2 & M2 & S2)|n l H1 H2 H3 (P3 & M3 & S3) H4|c l H1 (P1 & M1 & S1) H2 H3 H4 (P4 & M4 & S4) H5|n c l H1 (P1 & M1 & S1) H2 H3 (P3 & M3 & S3) H4 H5 H6 H7 (P7 & M7 & S7)].
  - split; [constructor|]. split; [intros a s t b E; destruct a; discriminate|congruence].
  - assert (Hh : forall c, begins_with c (source l) -> In c (lit " `*~[!<")).
    { intros c B. destruct (elem_head l H2 H3 c B) as [I|[-> _]]; cbn in *; tauto. }
    destruct (plain_no_head _ Hh) as (E1 & E2 & E3). split; [|split].
    + rewrite source_cons. cbn [source_of]. change (IText t :: l) with ([IText t] ++ l). eapply P_more; [|eapply (Yields cfg (PText t)); apply B_text|exact P2].
      apply text_first; [exact H1| |].
      * split; [exact H4|]. split; [|exact E3]. intros L B. destruct (elem_head l H2 H3 _ B) as [I|[_ (l' & ->)]]; [cbn in I; intuition discriminate|]. eapply (H5 c_sp L eq_refl). reflexivity.
      * destruct l as [|i l]; [now left|right]. split; [|now split]. apply S2; [exact H3|discriminate].
    + apply merged_cons; [exact M2|]. intros s _. exact H3.
    + intros N. exfalso. eapply N. reflexivity.
  - apply (K ILineBreak l PBreak); try discriminate; try assumption; [reflexivity|constructor|]. rewrite source_cons. cbn [source_of]. rewrite <- app_assoc. apply break_first.
  - apply (K (ICode s) l (PCode s)); try discriminate; try assumption; [reflexivity|constructor|]. rewrite source_cons. cbn [source_of]. rewrite <- !app_assoc. now apply code_first.
  - apply (K (IEmphasis c) l (PEmph 1 (source c))); try discriminate; try assumption; [reflexivity|constructor; auto|]. rewrite source_cons. cbn [source_of]. rewrite <- !app_assoc. fold (source c).
    apply (emphasis_first 1); [lia|exact H2| |now apply rich_last| |exact H6].
    + intros (u & E). apply H3. rewrite E. now left.
    + intros a b u E Nb X. destruct b as [|x b]; [congruence|]. injection X as -> _. apply H3. rewrite E. apply in_or_app. right. now left.
  - apply (K (IStrong c) l (PEmph 2 (source c))); try discriminate; try assumption; [reflexivity|constructor; auto|]. rewrite source_cons. cbn [source_of]. rewrite <- !app_assoc. fold (source c).
    apply (emphasis_first 2); [lia|exact H2| |now apply rich_last| |exact H5].
    + intros (u & E). apply (H3 [] (u ++ lit "*")). rewrite E. reflexivity.
    + intros a b u E Nb X. destruct b as [|x b]; [congruence|]. destruct b as [|y b].
      * injection X as -> _. apply (H3 (lit "*" ++ a) []). rewrite E. rewrite <- !app_assoc. reflexivity.
      * injection X as -> -> _. apply (H3 (lit "*" ++ a) (b ++ lit "*")). rewrite E. rewrite <- !app_assoc. reflexivity.
  - apply (K (IStrong [IEmphasis c]) l (PEmph 3 (source c))); try discriminate; try assumption; [reflexivity|constructor; auto|]. rewrite source_cons. cbn [source_of flat_map]. rewrite app_nil_r. rewrite <- !app_assoc. fold (source c).
    change (lit "**" ++ lit "*" ++ ?x) with (rep 3 (ch "*") ++ x). change (lit "*" ++ lit "**" ++ ?x) with (rep 3 (ch "*") ++ x).
    apply (emphasis_first 3); [lia|exact H2| |now apply rich_last| |exact H5].
    + intros (u & E). apply H3. rewrite E. now left.
    + intros a b u E Nb X. destruct b as [|x b]; [congruence|]. injection X as -> _. apply H3. rewrite E. apply in_or_app. right. now left.
  - apply (K (IStrikethrough c) l (PStrike (source c))); try discriminate; try assumption; [reflexivity|constructor; auto|]. rewrite source_cons. cbn [source_of]. rewrite <- !app_assoc. fold (source c).
    apply strike_first; [now apply tight_ne|exact H3|now apply rich_last|exact H5].
  - apply (K (ILink (Link d t c)) l (PLink (source c) d t)); try discriminate; try assumption; [reflexivity|constructor; auto|]. rewrite source_cons. cbn [source_of]. rewrite <- !app_assoc. fold (source c).
    now apply link_first.
  - apply (K (IImage (Image d t a)) l (PImage d t a)); try discriminate; try assumption; [reflexivity|constructor; auto|]. rewrite source_cons. cbn [source_of]. rewrite <- !app_assoc. now apply image_first.
  - apply (K (IAutolink u) l (PAutolink u)); try discriminate; try assumption; [reflexivity|constructor; auto|]. rewrite source_cons. cbn [source_of]. rewrite <- !app_assoc. now apply autolink_first.
  - apply (K (IFootnoteReference n) l (PFootnote n)); try discriminate; try assumption; [reflexivity|constructor; auto|]. rewrite source_cons. cbn [source_of]. rewrite <- !app_assoc. apply footnote_first; auto. apply H4. now left.
  - apply (K (ILinkReference (LinkReference c c)) l (PReference (source c) None)); try discriminate; try assumption; [reflexivity|constructor; auto|]. rewrite source_cons, source_same_ref. rewrite <- !app_assoc. apply shortcut_first; auto; apply H5; cbn; tauto.
  - apply (K (ILinkReference (LinkReference n c)) l (PReference (source c) (Some (source n)))); try discriminate; try assumption; [reflexivity|constructor; auto|]. rewrite source_cons, source_ref by congruence. rewrite <- !app_assoc. now apply reference_first.
Qed.
Theorem rich_parses : forall l, rich l -> source l <> [] -> inline_many0 cfg (source l) = Ok [] l /\ inline_many1 cfg (source l) = Ok [] l.
Proof.
  intros l H N. destruct (rich_reads l H) as (P & M & _).
  assert (X : ireads (source l) l) by (eapply Reads; [exact P|apply joins_refl|exact M]). split.
  - apply inline_many0_reads; [apply cfg_ok|discriminate|exact X].
  - apply reads1; [apply cfg_ok|discriminate|exact N|exact X].
Qed.
End Read.
