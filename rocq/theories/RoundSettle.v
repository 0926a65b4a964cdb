(** No line of a text of the fragment begins another block. *)
From Coq Require Import String Lia.
From Verif Require Import RoundStart.
From Verif Require Export RoundInline.
Import ListNotations.
Open Scope list_scope.
Local Notation len := (@List.length _).

Lemma split_mid : forall (c : char) x y a b, x ++ y = a ++ c :: b -> (exists b1, x = a ++ c :: b1 /\ b = b1 ++ y) \/ (exists a2, a = x ++ a2 /\ y = a2 ++ c :: b).
Proof.
  intros c. induction x as [|d x IH]; intros y a b E; [right; exists a; now split|]. destruct a as [|e a]; cbn [app] in E.
  - injection E as -> <-. left. exists x. now split.
  - injection E as -> E. destruct (IH y a b E) as [(b1 & -> & ->)|(a2 & -> & ->)]; [left; exists b1; now split|right; exists a2; now split].
Qed.
Lemma split_in : forall (c : char) p s q a b, ~ In c p -> ~ In c q -> p ++ s ++ q = a ++ c :: b -> exists a' b', s = a' ++ c :: b' /\ b = b' ++ q.
Proof.
  intros c p s q a b Hp Hq E. apply split_mid in E as [(b1 & -> & _)|(a2 & _ & E)]; [destruct Hp; apply in_or_app; right; now left|].
  apply split_mid in E as [(b1 & -> & ->)|(a3 & _ & ->)]; [now exists a2, b1|]. destruct Hq. apply in_or_app. right. now left.
Qed.
(** ** First words *)
Lemma tokens_blank : forall t b, tokens t = None :: b -> exists c u, t = c :: u /\ is_whitespace c = true.
Proof.
  intros [|c u] b E; [discriminate|]. exists c, u. split; [reflexivity|]. rewrite token_cons in E. unfold token_char in E. destruct (is_whitespace c); [reflexivity|]. destruct (tokens u) as [|[|]]; discriminate.
Qed.
Lemma tokens_nil : forall t, tokens t = [] -> t = [].
Proof. intros [|c u] E; [reflexivity|]. rewrite token_cons in E. unfold token_char in E. destruct (is_whitespace c); destruct (tokens u) as [|[|]]; discriminate. Qed.
Lemma first_word : forall t w b, tokens t = Some w :: b -> exists t2, t = w ++ t2 /\ w <> [] /\ Forall (fun c => is_whitespace c = false) w /\ (forall c, begins_with c t2 -> is_whitespace c = true).
Proof.
  induction t as [|c t IH]; intros w b E; [discriminate|]. rewrite token_cons in E. unfold token_char in E. destruct (is_whitespace c) eqn:W; [destruct (tokens t) as [|[|]]; discriminate|].
  destruct (tokens t) as [|[w'|] l] eqn:T; injection E as <- _.
  - apply tokens_nil in T as ->. exists []. split; [reflexivity|]. split; [discriminate|]. split; [now repeat constructor|]. intros x (u & E). discriminate.
  - destruct (IH w' l eq_refl) as (t2 & -> & _ & F & H). exists t2. split; [reflexivity|]. split; [discriminate|]. split; [now constructor|exact H].
  - exists t. split; [reflexivity|]. split; [discriminate|]. split; [now repeat constructor|]. apply tokens_blank in T as (d & u & -> & Wd). intros x (v & E). now injection E as -> _.
Qed.
Lemma some_word : forall c t, is_whitespace c = false -> exists w b, tokens (c :: t) = Some w :: b.
Proof. intros c t W. rewrite token_cons. unfold token_char. rewrite W. destruct (tokens t) as [|[|]]; eauto. Qed.

(** ** Characters *)
Lemma autolink_chars : forall u c, uri u \/ email u -> In c u -> c <> c_nl /\ c <> c_cr.
Proof.
  assert (A : forall (f : char -> bool) s, f c_nl = false -> f c_cr = false -> all f s -> forall c, In c s -> c <> c_nl /\ c <> c_cr).
  { intros f s H1 H2 F c I. unfold all in F. rewrite Forall_forall in F. specialize (F c I). cbv beta in F. split; intros ->; congruence. }
  intros u c [(x & a & b & -> & Hx & _ & Fa & Fb)|(a & b & -> & _ & _ & Fa & Fb)] I.
  - destruct I as [<-|I]; [split; intros ->; discriminate|]. apply in_app_or in I as [I|I]; [eapply A; [| |exact Fa|exact I]; reflexivity|]. destruct I as [<-|I]; [split; discriminate|]. eapply A; [| |exact Fb|exact I]; reflexivity.
  - apply in_app_or in I as [I|I]; [eapply A; [| |exact Fa|exact I]; reflexivity|]. destruct I as [<-|I]; [split; discriminate|]. eapply A; [| |exact Fb|exact I]; reflexivity.
Qed.
Lemma target_chars : forall d t, plain_target d t -> one_liner (d ++ title_source t ++ lit ")").
Proof.
  intros d t (_ & _ & [D1 D2] & Ht). assert (T : one_liner (title_source t)).
  { destruct t as [t|]; [|split; intros []]. destruct Ht as [[T1 T2] _]. unfold title_source, quoted_title.
    split; intro I; apply in_app_or in I as [I|I]; try (cbn in I; intuition discriminate); apply in_app_or in I as [I|I]; try contradiction; cbn in I; intuition discriminate. }
  destruct T as [T1 T2]. split; intro I; apply in_app_or in I as [I|I]; try contradiction; apply in_app_or in I as [I|I]; try contradiction; cbn in I; intuition discriminate.
Qed.
Lemma rich_no_cr : forall l, rich l -> ~ In c_cr (source l).
Proof.
  assert (K : forall i l, ~ In c_cr (source l) -> ~ In c_cr (source_of i) -> ~ In c_cr (source (i :: l))).
  { intros i l H1 H2 H. rewrite source_cons in H. apply in_app_or in H as [H|H]; contradiction. }
  assert (F : forall a b c, ~ In c_cr a -> ~ In c_cr b -> ~ In c_cr c -> ~ In c_cr (a ++ b ++ c)) by (intros a b c Ha Hb Hc I; apply in_app_or in I as [I|I]; [contradiction|]; apply in_app_or in I as [I|I]; contradiction).
  assert (L : forall a, forallb (fun c => negb (N.eqb c c_cr)) a = true -> ~ In c_cr a).
  { intros a E I. rewrite forallb_forall in E. specialize (E _ I). discriminate. }
  induction 1 as [|t l H1 H2 IH2 H3 H4 H5|l H1 IH1 H2|s l H1 H2 IH2 H3|c l H1 IH1 H2 H3 H4 H5 IH5 H6|c l H1 IH1 H2 H3 H4 IH4 H5|c l H1 IH1 H2 H3 H4 IH4 H5|c l H1 IH1 H2 H3 H4 IH4 H5
    |d t c l H1 IH1 H2 H3 H4 IH4|d t a l H1 H2 H3 H4 IH4|u l H1 H2 IH2|n l H1 H2 H3 IH3 H4|c l H1 IH1 H2 H3 H4 IH4 H5|n c l H1 IH1 H2 H3 IH3 H4 H5 H6 H7 IH7]; try (apply K; [assumption|]).
  - intros [].
  - cbn [source_of]. intro I. destruct H1 as (_ & _ & W & _). destruct (W _ I eq_refl); discriminate.
  - now apply L.
  - cbn [source_of]. apply F; try (now apply L). apply H1.
  - cbn [source_of]. apply F; try (now apply L). exact IH1.
  - cbn [source_of]. apply F; try (now apply L). exact IH1.
  - cbn [source_of flat_map]. rewrite app_nil_r. apply F; try (now apply L). apply F; try (now apply L). exact IH1.
  - cbn [source_of]. apply F; try (now apply L). exact IH1.
  - cbn [source_of]. apply F; try (now apply L); [exact IH1|]. intro I. apply in_app_or in I as [I|I]; [cbn in I; intuition discriminate|]. now apply (target_chars d t H3) in I.
  - cbn [source_of]. apply F; try (now apply L); [apply H1|]. intro I. apply in_app_or in I as [I|I]; [cbn in I; intuition discriminate|]. now apply (target_chars d t H3) in I.
  - cbn [source_of]. apply F; try (now apply L). intro I. now apply (autolink_chars u) in I as [_ I].
  - cbn [source_of]. apply F; try (now apply L). intro I. unfold all in H2. rewrite Forall_forall in H2. apply H2 in I. discriminate.
  - rewrite source_same_ref. apply F; try (now apply L). exact IH1.
  - rewrite source_ref by congruence. apply F; try (now apply L); [exact IH3|]. apply F; try (now apply L). exact IH1.
Qed.

(** on one line: no hard break, and no line break in a text *)
Definition one_lined (l : list inline) : Prop := ~ In ILineBreak (flat_map inline_preorder l) /\ forall t, In (IText t) (flat_map inline_preorder l) -> ~ In c_nl t.
Lemma one_lined_cons : forall i l, one_lined (i :: l) -> one_lined l.
Proof. intros i l [H1 H2]. split; [intro I; apply H1; cbn [flat_map]; apply in_or_app; now right|]. intros t I. apply H2. cbn [flat_map]. apply in_or_app. now right. Qed.
Lemma one_lined_inner : forall i l c, incl (flat_map inline_preorder c) (inline_preorder i) -> one_lined (i :: l) -> one_lined c.
Proof. intros i l c H [H1 H2]. split; [intro I; apply H1; cbn [flat_map]; apply in_or_app; left; now apply H|]. intros t I. apply H2. cbn [flat_map]. apply in_or_app. left. now apply H. Qed.
Lemma rich_no_nl : forall l, rich l -> one_lined l -> ~ In c_nl (source l).
Proof.
  assert (K : forall i l, (one_lined l -> ~ In c_nl (source l)) -> (one_lined (i :: l) -> ~ In c_nl (source_of i)) -> one_lined (i :: l) -> ~ In c_nl (source (i :: l))).
  { intros i l H1 H2 O H. rewrite source_cons in H. apply in_app_or in H as [H|H]; [now apply H2|]. apply H1; [now apply one_lined_cons in O|exact H]. }
  assert (F : forall a b c, ~ In c_nl a -> ~ In c_nl b -> ~ In c_nl c -> ~ In c_nl (a ++ b ++ c)) by (intros a b c Ha Hb Hc I; apply in_app_or in I as [I|I]; [contradiction|]; apply in_app_or in I as [I|I]; contradiction).
  assert (L : forall a, forallb (fun c => negb (N.eqb c c_nl)) a = true -> ~ In c_nl a).
  { intros a E I. rewrite forallb_forall in E. specialize (E _ I). discriminate. }
  induction 1 as [|t l H1 H2 IH2 H3 H4 H5|l H1 IH1 H2|s l H1 H2 IH2 H3|c l H1 IH1 H2 H3 H4 H5 IH5 H6|c l H1 IH1 H2 H3 H4 IH4 H5|c l H1 IH1 H2 H3 H4 IH4 H5|c l H1 IH1 H2 H3 H4 IH4 H5
    |d t c l H1 IH1 H2 H3 H4 IH4|d t a l H1 H2 H3 H4 IH4|u l H1 H2 IH2|n l H1 H2 H3 IH3 H4|c l H1 IH1 H2 H3 H4 IH4 H5|n c l H1 IH1 H2 H3 IH3 H4 H5 H6 H7 IH7]; try (apply K; [assumption|]); intros O.
  - intros [].
  - cbn [source_of]. apply O. cbn. now left.
  - exfalso. apply O. cbn. now left.
  - cbn [source_of]. apply F; try (now apply L). apply H1.
  - cbn [source_of]. apply F; try (now apply L). apply IH1. eapply one_lined_inner; [|exact O]. intros x I. cbn. now right.
  - cbn [source_of]. apply F; try (now apply L). apply IH1. eapply one_lined_inner; [|exact O]. intros x I. cbn. now right.
  - cbn [source_of flat_map]. rewrite app_nil_r. apply F; try (now apply L). apply F; try (now apply L). apply IH1. eapply one_lined_inner; [|exact O]. intros x I. cbn. rewrite app_nil_r. right. now right.
  - cbn [source_of]. apply F; try (now apply L). apply IH1. eapply one_lined_inner; [|exact O]. intros x I. cbn. now right.
  - cbn [source_of]. apply F; try (now apply L); [apply IH1; eapply one_lined_inner; [|exact O]; intros x I; cbn; now right|]. intro I. apply in_app_or in I as [I|I]; [cbn in I; intuition discriminate|]. destruct (target_chars d t H3) as [T _]. contradiction.
  - cbn [source_of]. apply F; try (now apply L); [apply H1|]. intro I. apply in_app_or in I as [I|I]; [cbn in I; intuition discriminate|]. destruct (target_chars d t H3) as [T _]. contradiction.
  - cbn [source_of]. apply F; try (now apply L). intro I. now apply (autolink_chars u) in I as [I _].
  - cbn [source_of]. apply F; try (now apply L). intro I. unfold all in H2. rewrite Forall_forall in H2. apply H2 in I. discriminate.
  - rewrite source_same_ref. apply F; try (now apply L). apply IH1. eapply one_lined_inner; [|exact O]. intros x I. cbn. right. apply in_or_app. now left.
  - rewrite source_ref by congruence. apply F; try (now apply L); [apply IH3; eapply one_lined_inner; [|exact O]; intros x I; cbn; right; apply in_or_app; now right|]. apply F; try (now apply L).
    apply IH1. eapply one_lined_inner; [|exact O]. intros x I. cbn. right. apply in_or_app. now left.
Qed.

Section Settle.
Variables (entities : str -> option str) (punct : char -> bool) (upper : char -> str).
Local Notation quiet := (RoundBlocks.quiet entities punct upper).
Local Notation settled := (RoundBlocks.settled entities punct upper).
Lemma word_end_ind : forall k x r, word_end x -> stops r -> word_end (ind k x ++ r).
Proof.
  intros k [|c x] r H Hr.
  - cbn. destruct r as [|c r]; [exact I|]. cbn in Hr. subst c. split; [reflexivity|]. cbn. intuition discriminate.
  - destruct (N.eq_dec c c_nl) as [->|N]; [rewrite ind_nl; split; [reflexivity|cbn; intuition discriminate]|]. rewrite ind_cons by exact N. exact H.
Qed.
Lemma word_quiet : forall w x, word w -> opens_line w -> word_end x -> quiet (w ++ x).
Proof.
  intros w x Hw Ho Hx. split.
  - destruct Hw as [N F]. destruct w as [|c w]; [congruence|]. eexists c, _. split; [reflexivity|]. inversion F as [|? ? [_ W] _]; subst. exact W.
  - intros k r Hk Hr. rewrite ind_app, ind_free.
    + rewrite <- app_assoc. apply w_starters; auto. now apply word_end_ind.
    + destruct Hw as [_ F]. intro I. rewrite Forall_forall in F. apply F in I as [_ I]. discriminate.
Qed.
(** what may follow the fragment in its surroundings *)
Definition cont (r : str) : Prop := forall c, begins_with c r -> In c (lit "*]~").
Lemma cont_app : forall x r, x <> [] -> (forall c, begins_with c x -> In c (lit "*]~")) -> cont (x ++ r).
Proof. intros x r N H c (u & E). destruct x as [|d x]; [congruence|]. injection E as -> _. apply H. now eexists. Qed.
Lemma next_head : forall l r c, cont r -> begins_with c (source l ++ r) -> begins_with c (source l) \/ source l = [] /\ In c (lit "*]~").
Proof. intros l r c Hr (u & E). destruct (source l) as [|d s]; [right; split; [reflexivity|]; apply Hr; eexists; exact E|left]. cbn [app] in E. injection E as -> _. eexists; reflexivity. Qed.
Lemma text_quiet : forall t l r w b, rich l -> no_text l -> Forall plain_char t -> tokens t = Some w :: b -> opens_line w -> cont r -> quiet (t ++ source l ++ r).
Proof.
  intros t l r w b Hl Hn Hp T Ho Hr. apply first_word in T as (t2 & -> & Nw & Fw & Hb). rewrite <- app_assoc. apply word_quiet; [|exact Ho|].
  - split; [exact Nw|]. apply Forall_app in Hp as [Hp _]. rewrite Forall_forall in *. intros c I. split; [now apply Hp|now apply Fw].
  - destruct t2 as [|c t2].
    + cbn [app]. destruct (source l ++ r) as [|c s] eqn:E; [exact I|].
      assert (X : In c (lit "`*~[!<") \/ c = c_sp \/ In c (lit "*]~")).
      { destruct (next_head l r c Hr) as [B|[_ B]]; [rewrite E; now eexists| |now right; right]. apply elem_head in B as [B|[B _]]; auto. }
      cbn in X. cbn. repeat (match type of X with _ \/ _ => destruct X as [X|X] end); try contradiction; subst c; (split; [reflexivity|intuition discriminate]).
    + specialize (Hb c (ex_intro _ t2 eq_refl)). cbn [app word_end]. split; [|intro I; cbn in I; destruct I as [<-|[<-|[]]]; discriminate].
      destruct (is_digit c) eqn:D; [|reflexivity]. exfalso. unfold is_digit in D. apply andb_prop in D as [D1 D2]. apply N.leb_le in D1, D2.
      change (ch "0") with 48%N in D1. change (ch "9") with 57%N in D2. assert (C : In c (map N.of_nat (seq 48 10))) by (apply in_map_iff; exists (N.to_nat c); split; [apply N2Nat.id|apply in_seq; lia]).
      cbn in C. repeat (destruct C as [<-|C]; [discriminate Hb|]). contradiction.
Qed.
Lemma tight_inked : forall s, tight s -> exists c t, s = c :: t /\ inked c.
Proof. intros s [(c & t & -> & W) _]. exists c, t. split; [reflexivity|now apply white_inked]. Qed.
Lemma not_bracket : forall l, rich l -> source l <> lit "[".
Proof.
  intros l H E. destruct H as [|t l H1 H2 H3 H4 H5|l H1 H2|s l H1 H2 H3|c l H1 H2 H3 H4 H5 H6|c l H1 H2 H3 H4 H5|c l H1 H2 H3 H4 H5|c l H1 H2 H3 H4 H5
    |d t c l H1 H2 H3 H4|d t a l H1 H2 H3 H4|u l H1 H2|n l H1 H2 H3 H4|c l H1 H2 H3 H4 H5|n c l H1 H2 H3 H4 H5 H6 H7]; try discriminate E.
  - rewrite source_cons in E. cbn [source_of] in E. destruct H1 as (N & P & _). destruct t as [|x t]; [congruence|]. injection E as -> _. inversion P as [|? ? Q _]; subst. apply Q. cbn. tauto.
  - rewrite source_cons in E. cbn [source_of] in E. injection E as E. destruct (flat_map source_of c); discriminate E.
  - rewrite source_cons, source_same_ref in E. injection E as E. destruct (source c); discriminate E.
  - rewrite source_cons, source_ref in E by congruence. injection E as E. destruct (source c); discriminate E.
Qed.
Lemma open_quiet : forall l r, rich l -> opens_paragraph l -> cont r -> quiet (source l ++ r).
Proof.
  intros l r H O Hr. destruct H as [|t l H1 H2 H3 H4 H5|l H1 H2|s l H1 H2 H3|c l H1 H2 H3 H4 H5 H6|c l H1 H2 H3 H4 H5|c l H1 H2 H3 H4 H5|c l H1 H2 H3 H4 H5
    |d t c l H1 H2 H3 H4|d t a l H1 H2 H3 H4|u l H1 H2|n l H1 H2 H3 H4|c l H1 H2 H3 H4 H5|n c l H1 H2 H3 H4 H5 H6 H7]; try contradiction; rewrite source_cons.
  - destruct O as (w & b & T & Ho). cbn [source_of]. rewrite <- app_assoc. destruct H1 as (_ & P & _). now apply (text_quiet t l r w b).
  - destruct H1 as (N & _ & T & _). destruct s as [|x s]; [congruence|]. cbn [source_of app]. apply q_tick. intros ->. apply T. now left.
  - cbn [source_of]. fold (source c). destruct (tight_inked _ H2) as (x & t & E & Hx). rewrite E in *. rewrite <- !app_assoc. cbn [app]. apply (q_stars _ _ _ 1); [lia|exact Hx|intros ->; apply H3; now left|].
    intros _ y v Ev. injection Ev as -> Ev. destruct t as [|y' t]; [now destruct (not_bracket c H1)|]. cbn [app] in Ev. injection Ev as -> Ev.
    destruct t as [|z t]; [discriminate|]. cbn [app] in Ev. injection Ev as -> Ev. destruct t as [|b t].
    + cbn [app] in Ev. subst v. eexists _, _. split; [reflexivity|]. split; discriminate.
    + cbn [app] in Ev. subst v. eexists _, _. split; [reflexivity|]. destruct (is_whitespace b) eqn:W; [|now apply white_inked in W as [W _]].
      exfalso. apply H4. exists y, b, t. now split.
  - cbn [source_of]. fold (source c). destruct (tight_inked _ H2) as (x & t & E & Hx). rewrite E in *. rewrite <- !app_assoc. cbn [app]. apply (q_stars _ _ _ 2); [lia|exact Hx| |discriminate].
    intros ->. apply (H3 [] (t ++ lit "*")). reflexivity.
  - cbn [source_of flat_map]. rewrite app_nil_r. fold (source c). destruct (tight_inked _ H2) as (x & t & E & Hx). rewrite E in *. rewrite <- !app_assoc. cbn [app]. apply (q_stars _ _ _ 3); [lia|exact Hx| |discriminate].
    intros ->. apply H3. now left.
  - cbn [source_of]. fold (source c). destruct (tight_inked _ H2) as (x & t & E & Hx). rewrite E in *. rewrite <- !app_assoc. cbn [app]. apply q_tilde. intros ->. apply H3. now left.
  - cbn [source_of]. fold (source c). destruct H2 as (_ & N1 & N2 & _). rewrite <- !app_assoc. apply (q_bracket _ _ _ (source c) (lit "(" ++ d ++ title_source t ++ lit ")" ++ source l ++ r)); auto. intros (u & E). discriminate.
  - cbn [source_of app]. apply q_bang.
  - cbn [source_of]. rewrite <- !app_assoc. now apply q_angle.
  - cbn [source_of]. rewrite <- !app_assoc. apply (q_bracket _ _ _ (ch "^" :: n) (source l ++ r)).
    + intros [I|I]; [discriminate|]. unfold all in H2. rewrite Forall_forall in H2. apply H2 in I. discriminate.
    + intros [I|I]; [discriminate|]. unfold all in H2. rewrite Forall_forall in H2. apply H2 in I. discriminate.
    + intros B. apply next_head in B as [B|[_ B]]; [|cbn in B; intuition discriminate|exact Hr]. apply (H4 (ch ":")); [cbn; tauto|exact B].
  - rewrite source_same_ref. destruct H2 as (_ & N1 & N2 & _). rewrite <- !app_assoc. apply q_bracket; auto.
    intros B. apply next_head in B as [B|[_ B]]; [|cbn in B; intuition discriminate|exact Hr]. apply (H5 (ch ":")); [cbn; tauto|exact B].
  - rewrite source_ref by congruence. destruct H4 as (_ & N1 & N2 & _). rewrite <- !app_assoc. apply (q_bracket _ _ _ (source c) (lit "[" ++ source n ++ lit "]" ++ source l ++ r)); auto. intros (u & E). discriminate.
Qed.

(** every line break in a text stands before a word that may begin a line *)
Definition breaks_open (l : list inline) : Prop :=
  forall t, In (IText t) (flat_map inline_preorder l) -> forall a b w x, t = a ++ c_nl :: b -> tokens b = Some w :: x -> opens_line w.
Lemma breaks_cons : forall i l, breaks_open (i :: l) -> breaks_open l.
Proof. intros i l H t I. apply H. cbn [flat_map]. apply in_or_app. now right. Qed.
Lemma breaks_inner : forall i l c, incl (flat_map inline_preorder c) (inline_preorder i) -> breaks_open (i :: l) -> breaks_open c.
Proof. intros i l c S H t I. apply H. cbn [flat_map]. apply in_or_app. left. now apply S. Qed.
Definition ends_inked (s : str) : Prop := forall c, last_is c s -> is_whitespace c = false.
Lemma tight_ends : forall s, tight s -> ends_inked s.
Proof. intros s [_ (t & c & -> & W)] d L. apply last_one in L. now subst. Qed.
Lemma ends_cons : forall i l, ends_inked (source (i :: l)) -> ends_inked (source l).
Proof. intros i l H c (t & E). apply H. rewrite source_cons, E. exists (source_of i ++ t). now rewrite app_assoc. Qed.
Lemma rich_lines : forall l, rich l -> forall r, cont r -> breaks_open l -> ends_inked (source l) -> forall a b, source l = a ++ c_nl :: b -> quiet (b ++ r).
Proof.
  assert (CS : forall x r, cont (lit "*" ++ x ++ r)) by (intros x r c (u & E); injection E as <- _; cbn; tauto).
  induction 1 as [|t l H1 H2 IH2 H3 H4 H5|l H1 IH1 H2|s l H1 H2 IH2 H3|c l H1 IH1 H2 H3 H4 H5 IH5 H6|c l H1 IH1 H2 H3 H4 IH4 H5|c l H1 IH1 H2 H3 H4 IH4 H5|c l H1 IH1 H2 H3 H4 IH4 H5
    |d t c l H1 IH1 H2 H3 H4 IH4|d t x l H1 H2 H3 H4 IH4|u l H1 H2 IH2|n l H1 H2 H3 IH3 H4|c l H1 IH1 H2 H3 H4 IH4 H5|n c l H1 IH1 H2 H3 IH3 H4 H5 H6 H7 IH7]; intros r Hr Hb He a b E;
    [now destruct a|..]; pose proof (breaks_cons _ _ Hb) as Hbl; pose proof (ends_cons _ _ He) as Hel; rewrite source_cons in E; (apply split_mid in E as [(b1 & E & ->)|(a2 & _ & E)]; [rewrite <- app_assoc|eauto]).
  - cbn [source_of] in E. destruct b1 as [|x b1].
    + cbn [app]. assert (Ln : last_is c_nl t) by (exists a; exact E). apply open_quiet; [exact H2| |exact Hr].
      destruct l as [|i l]; [|destruct i; cbn; try exact I; [exfalso; eapply H3; reflexivity|exfalso; eapply (H5 c_nl Ln eq_refl); reflexivity]].
      specialize (He c_nl). rewrite source_cons in He. cbn [source_of source flat_map] in He. rewrite app_nil_r in He. specialize (He Ln). discriminate.
    + destruct H1 as (_ & P & _ & D). assert (W : is_whitespace x = false) by (now apply (D a b1 c_nl x)). destruct (some_word x b1 W) as (w & y & T).
      apply (text_quiet (x :: b1) l r w y); auto.
      * rewrite E in P. apply Forall_app in P as [_ P]. now inversion P.
      * apply (Hb t) with (a := a) (b := x :: b1) (x := y); [now left|exact E|exact T].
  - assert (b1 = []) as ->.
    { cbn [source_of] in E. destruct a as [|? [|? [|? a]]]; cbn in E; try discriminate; [now injection E as <-|]. injection E as _ _ _ E. destruct a; discriminate. }
    now apply open_quiet.
  - exfalso. cbn [source_of] in E. apply split_in in E as (a' & b' & -> & _); [|cbn; intuition discriminate|cbn; intuition discriminate]. destruct H1 as (_ & (O & _) & _). apply O. apply in_or_app. right. now left.
  - cbn [source_of] in E. apply split_in in E as (a' & b' & Es & ->); [|cbn; intuition discriminate|cbn; intuition discriminate]. rewrite <- app_assoc. apply (IH1 _ (CS _ _)) with (a := a'); auto; [|now apply tight_ends].
    apply (breaks_inner (IEmphasis c) l); [|exact Hb]. cbn. intros y I. now right.
  - cbn [source_of] in E. apply split_in in E as (a' & b' & Es & ->); [|cbn; intuition discriminate|cbn; intuition discriminate]. rewrite <- app_assoc. apply (IH1 _ (CS (lit "*" ++ source l) r)) with (a := a'); auto; [|now apply tight_ends].
    apply (breaks_inner (IStrong c) l); [|exact Hb]. cbn. intros y I. now right.
  - cbn [source_of flat_map] in E. rewrite app_nil_r in E. apply split_in in E as (a' & b' & Es & ->); [|cbn; intuition discriminate|cbn; intuition discriminate]. symmetry in Es.
    symmetry in Es. apply split_in in Es as (a2 & b2 & Es & ->); [|cbn; intuition discriminate|cbn; intuition discriminate].
    rewrite <- !app_assoc. apply (IH1 _ (CS (lit "**" ++ source l) r)) with (a := a2); auto; [|now apply tight_ends].
    apply (breaks_inner (IStrong [IEmphasis c]) l); [|exact Hb]. cbn. rewrite app_nil_r. intros y I. right. now right.
  - cbn [source_of] in E. apply split_in in E as (a' & b' & Es & ->); [|cbn; intuition discriminate|cbn; intuition discriminate]. rewrite <- app_assoc. apply (IH1 (lit "~~" ++ source l ++ r)) with (a := a'); auto; [| |now apply tight_ends].
    + intros y (u & X). injection X as <- _. cbn. tauto.
    + apply (breaks_inner (IStrikethrough c) l); [|exact Hb]. cbn. intros y I. now right.
  - cbn [source_of] in E. destruct (target_chars d t H3) as [T1 _]. apply split_in in E as (a' & b' & Es & ->); [|cbn; intuition discriminate|].
    + rewrite <- !app_assoc. apply (IH1 (lit "](" ++ d ++ title_source t ++ lit ")" ++ source l ++ r)) with (a := a'); auto; [| |now apply tight_ends, H2].
      * intros y (u & X). injection X as <- _. cbn. tauto.
      * apply (breaks_inner (ILink (Link d t c)) l); [|exact Hb]. cbn. intros y I. now right.
    + intro I. apply in_app_or in I as [I|I]; [cbn in I; intuition discriminate|contradiction].
  - exfalso. cbn [source_of] in E. destruct (target_chars d t H3) as [T1 _]. apply split_in in E as (a' & b' & -> & _); [|cbn; intuition discriminate|].
    + destruct H1 as [H1 _]. apply H1. apply in_or_app. right. now left.
    + intro I. apply in_app_or in I as [I|I]; [cbn in I; intuition discriminate|contradiction].
  - exfalso. cbn [source_of] in E. apply split_in in E as (a' & b' & -> & _); [|cbn; intuition discriminate|cbn; intuition discriminate].
    apply (autolink_chars _ c_nl) in H1 as [H1 _]; [congruence|]. apply in_or_app. right. now left.
  - exfalso. cbn [source_of] in E. apply split_in in E as (a' & b' & -> & _); [|cbn; intuition discriminate|cbn; intuition discriminate].
    unfold all in H2. rewrite Forall_forall in H2. specialize (H2 c_nl). discriminate H2. apply in_or_app. right. now left.
  - rewrite source_same_ref in E. apply split_in in E as (a' & b' & Es & ->); [|cbn; intuition discriminate|cbn; intuition discriminate]. rewrite <- app_assoc. apply (IH1 (lit "]" ++ source l ++ r)) with (a := a'); auto; [| |now apply tight_ends, H2].
    + intros y (u & X). injection X as <- _. cbn. tauto.
    + apply (breaks_inner (ILinkReference (LinkReference c c)) l); [|exact Hb]. cbn. intros y I. right. apply in_or_app. now right.
  - rewrite source_ref in E by congruence. rewrite app_assoc in E. apply split_mid in E as [(b2 & E & ->)|(a2 & _ & E)].
    + apply split_mid in E as [(b3 & E & _)|(a3 & _ & E)]; [exfalso; destruct a as [|? a]; [discriminate|]; injection E as _ E; destruct a; discriminate|].
      rewrite <- !app_assoc. apply (IH3 (lit "][" ++ source n ++ lit "]" ++ source l ++ r)) with (a := a3); auto; [| |now apply tight_ends, H4].
      * intros y (u & X). injection X as <- _. cbn. tauto.
      * apply (breaks_inner (ILinkReference (LinkReference n c)) l); [|exact Hb]. cbn. intros y I. right. apply in_or_app. now right.
    + apply split_in in E as (a' & b' & Es & ->); [|cbn; intuition discriminate|cbn; intuition discriminate]. rewrite <- app_assoc. apply (IH1 (lit "]" ++ source l ++ r)) with (a := a'); auto; [| |now apply tight_ends, H2].
      * intros y (u & X). injection X as <- _. cbn. tauto.
      * apply (breaks_inner (ILinkReference (LinkReference n c)) l); [|exact Hb]. cbn. intros y I. right. apply in_or_app. now left.
Qed.
Theorem rich_settled : forall l, rich l -> breaks_open l -> opens_paragraph l -> ends_inked (source l) -> settled (source l).
Proof.
  intros l H Hb Ho He. assert (C : cont []) by (intros c (u & E); discriminate). split; [now apply rich_no_cr|]. split.
  - rewrite <- (app_nil_r (source l)). now apply open_quiet.
  - intros a b E. rewrite <- (app_nil_r b). now apply (rich_lines l H [] C Hb He a b).
Qed.
End Settle.
(** ... and the printer sees to it *)
Lemma tokens_tail : forall b a, (exists l, tokens b = None :: l) -> exists a', tokens (a ++ b) = a' ++ tokens b.
Proof.
  intros b a (l & E). induction a as [|c a (a' & IH)]; [now exists []|]. change ((c :: a) ++ b) with (c :: (a ++ b)). rewrite token_cons, IH. unfold token_char. destruct (is_whitespace c).
  - destruct (a' ++ tokens b) as [|[w|] m] eqn:X; [exists [None]; cbn; destruct a'; [|discriminate]; cbn in X; rewrite X; reflexivity| |].
    + exists (None :: a'). cbn. now rewrite X.
    + exists a'. now rewrite X.
  - destruct a' as [|[w|] a']; cbn [app].
    + rewrite E. exists [Some [c]]. reflexivity.
    + now exists (Some (c :: w) :: a').
    + now exists (Some [c] :: None :: a').
Qed.
Lemma wrap_opens : forall udigit l, wrappable udigit l -> (forall t, In (IText t) (flat_map inline_preorder l) -> breaks_ok udigit t) -> breaks_open l.
Proof.
  intros udigit l W B t I a b w x E T. specialize (B t I a b w x E T).
  assert (N : tokens (c_nl :: b) = None :: Some w :: x) by (rewrite token_cons, T; reflexivity).
  destruct (tokens_tail (c_nl :: b) a) as (a' & E'); [eauto|]. rewrite N, <- E in E'. destruct (W t I a' w x E') as [O|U]; [exact O|]. exfalso.
  apply first_word in T as (t2 & _ & Nw & Fw & _). apply (unsafe_iff udigit w Nw Fw) in U. congruence.
Qed.
