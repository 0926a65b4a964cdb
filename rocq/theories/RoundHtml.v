(** Reading printed HTML blocks. *)
From Coq Require Import String Lia ZifyBool.
From Verif Require SyntaxTable SyntaxHtml SyntaxDoc.
From Verif Require Export RoundDef.
Import ListNotations.
Open Scope list_scope.
Local Notation len := (@List.length _).

Lemma closed_here : forall o a c r, (forall x y, a ++ c = x ++ c ++ y -> y = []) -> SpecBlock.closed o c ((o ++ a ++ c) ++ r) (o ++ a ++ c) r.
Proof.
  intros o a c r U. exists a. split; [reflexivity|]. split; [reflexivity|]. split; [now exists r|].
  intros x b -> Nb (y & E). assert (L : exists z, b ++ c = c ++ z /\ z <> []).
  { rewrite app_assoc in E. assert (K : firstn (len c) ((b ++ c) ++ r) = c) by (rewrite E, firstn_app, firstn_all, Nat.sub_diag; apply app_nil_r).
    rewrite firstn_app in K. replace (len c - len (b ++ c)) with 0 in K by (rewrite app_length; lia). cbn [firstn] in K. rewrite app_nil_r in K.
    exists (skipn (len c) (b ++ c)). split; [rewrite <- K at 2; symmetry; apply firstn_skipn|]. intro Z0. apply (f_equal (@List.length _)) in Z0. rewrite skipn_length, app_length in Z0. destruct b; [congruence|cbn [List.length] in Z0; lia]. }
  destruct L as (z & E2 & Nz). apply Nz, (U x z). rewrite <- app_assoc. now rewrite E2.
Qed.
Lemma no_raw : forall x s, ~ In (to_lower x) (lit "ps") -> ~ SpecInline.applies SpecBlock.html1 (ch "<" :: x :: s).
Proof.
  intros x s N (v & r & t & y & body & e & -> & E & I & _). cbn [app] in E. injection E as E. destruct t as [|d t]; [cbn in I; intuition discriminate|].
  cbn [app] in E. injection E as -> _. cbn [map] in I. apply N. cbn in I. destruct I as [I|[I|[I|[]]]]; injection I as I _; cbn; rewrite <- I; tauto.
Qed.
Lemma not_closed : forall o c s, (forall t, s <> o ++ t) -> ~ SpecInline.applies (SpecBlock.closed o c) s.
Proof. intros o c s N (v & r & b & -> & -> & _). apply (N (b ++ c ++ r)). now rewrite <- !app_assoc. Qed.
Lemma raw_low : forall t c, In (map to_lower t) SpecBlock.raw_names -> In c t -> c <> ch "<" /\ c <> ch ">".
Proof.
  intros t c I J. apply (in_map to_lower) in J. cbn in I. split; intros ->; destruct I as [I|[I|[I|[]]]]; rewrite <- I in J; cbn in J; intuition discriminate.
Qed.
Lemma raw_at : forall t c a e r, In (map to_lower t) SpecBlock.raw_names -> In c [c_sp; ch ">"; c_nl] -> end_tag e ->
  (forall x f y, a ++ e = x ++ f ++ y -> end_tag f -> y = []) ->
  SpecBlock.html1 ((ch "<" :: t ++ c :: a ++ e) ++ r) (ch "<" :: t ++ c :: a ++ e) r.
Proof.
  intros t c a e r Ht Hc He U. exists t, [c], a, e. split; [reflexivity|]. split; [reflexivity|]. split; [exact Ht|].
  split; [cbn in Hc; destruct Hc as [<-|[<-|[<-|[]]]]; [now left|right; now left|right; right; now left]|].
  assert (R : forall z, SpecBlock.raw_end (e ++ z) z).
  { intros z. destruct He as (u & Iu & ->). exists u. split; [now rewrite <- !app_assoc|exact Iu]. }
  split; [apply R|]. split; [eexists; apply R|]. intros x b -> Nb (r' & u & E & Iu).
  assert (F : end_tag (lit "</" ++ u ++ lit ">")) by (exists u; now split). set (f := lit "</" ++ u ++ lit ">") in *.
  assert (E2 : (b ++ e) ++ r = f ++ r') by (subst f; rewrite <- app_assoc, E; now rewrite <- !app_assoc).
  apply app_eq_app in E2 as (z & [[E2 _]|[E2 _]]).
  - assert (z = []) by (eapply (U x f z); [now rewrite <- app_assoc, E2|exact F]). subst z. rewrite app_nil_r in E2. symmetry in E2.
    assert (In (ch "<") u); [|now apply (raw_low u _ Iu) in H as [H _]]. destruct He as (v & _ & ->). subst f. destruct b as [|d b]; [congruence|]. injection E2 as _ E2.
    assert (J : In (ch "<") (ch "/" :: u ++ lit ">")) by (match type of E2 with ?L = _ => change (In (ch "<") L) end; rewrite E2; apply in_or_app; right; now left).
    destruct J as [J|J]; [discriminate J|]. apply in_app_or in J as [J|J]; [exact J|cbn in J; intuition discriminate].
  - assert (In (ch "<") u); [|now apply (raw_low u _ Iu) in H as [H _]]. destruct He as (v & _ & ->). subst f. destruct b as [|d b]; [congruence|]. injection E2 as _ E2.
    assert (J : In (ch "<") (ch "/" :: u ++ lit ">")) by (match type of E2 with ?L = _ => change (In (ch "<") L) end; rewrite E2; apply in_or_app; left; apply in_or_app; right; now left).
    destruct J as [J|J]; [discriminate J|]. apply in_app_or in J as [J|J]; [exact J|cbn in J; intuition discriminate].
Qed.
Lemma html_closed : forall s r, closed_html s -> SpecBlock.html_at (s ++ r) s r.
Proof.
  intros s r (_ & [(o & c & a & I & -> & U)|(t & c & a & e & Ht & Hc & He & -> & U)]); [|left; now apply raw_at].
  pose proof (closed_here o a c r U) as K. unfold SpecBlock.html_at. cbn [SpecInline.first_of].
  destruct I as [I|(-> & u & Hu & ->)].
  - cbn [In html_marks] in I. destruct I as [I|[I|[I|[]]]]; injection I as <- <-; (right; split; [apply no_raw; cbn; intuition discriminate|]).
    + left. exact K.
    + right. split; [apply not_closed; intros t E; discriminate E|]. left. exact K.
    + right. split; [apply not_closed; intros t E; discriminate E|]. right. split; [apply not_closed; intros t E; discriminate E|].
      right. split; [|left; exact K]. intros (v & r' & x & Ux & b & -> & E & _). cbn [lit app] in E. injection E as <- _. discriminate Ux.
  - right. split; [apply no_raw; cbn; intuition discriminate|]. right. split; [apply not_closed; intros t E; injection E as -> _; discriminate Hu|].
    right. split; [apply not_closed; intros t E; discriminate E|].
    left. now exists u.
Qed.
Lemma closed_head : forall s, closed_html s -> exists t, s = ch "<" :: t.
Proof.
  intros s (_ & [(o & c & a & I & -> & _)|(t & c & a & e & _ & _ & _ & -> & _)]); [|eexists; reflexivity].
  destruct I as [I|(_ & u & _ & ->)]; [|eexists; reflexivity]. cbn [In html_marks] in I. destruct I as [I|[I|[I|[]]]]; injection I as <- <-; eexists; reflexivity.
Qed.
Lemma closed_end : forall s, closed_html s -> exists t, s = t ++ [ch ">"].
Proof.
  intros s (_ & [(o & c & a & I & -> & _)|(t & c & a & e & _ & _ & (u & _ & ->) & -> & _)]).
  - assert (X : exists c', c = c' ++ [ch ">"]).
    { destruct I as [I|(-> & _)]; [|now exists []]. cbn [In html_marks] in I. destruct I as [I|[I|[I|[]]]]; injection I as _ <-; [exists (lit "--")|exists (lit "?")|exists (lit "]]")]; reflexivity. }
    destruct X as (c' & ->). exists (o ++ a ++ c'). now rewrite <- !app_assoc.
  - exists (ch "<" :: t ++ c :: a ++ lit "</" ++ u). cbn [app]. rewrite <- !app_assoc. cbn [app]. rewrite <- !app_assoc. reflexivity.
Qed.
(** *** Tags *)
Lemma first_no : forall A (l : list (SpecInline.rule A)) (R : SpecInline.rule A) l' s p r, Forall (fun R => ~ SpecInline.applies R s) l -> R s p r -> SpecInline.first_of (l ++ R :: l') s p r.
Proof. intros A l R l' s p r F H. induction F as [|Q l N F IH]; [now left|]. right. now split. Qed.
Lemma name_chars : forall m c, In m SpecBlock.block_names -> In c m -> (is_alnum c && negb (is_upper c))%bool = true.
Proof.
  intros m c I J. assert (F : forallb (forallb (fun c => is_alnum c && negb (is_upper c))%bool) SpecBlock.block_names = true) by reflexivity.
  rewrite forallb_forall in F. specialize (F m I). rewrite forallb_forall in F. exact (F c J).
Qed.
Lemma name_cut : forall n d y t r, block_tag n -> is_alnum d = false -> n ++ d :: y = t ++ r -> forall m, In m SpecBlock.block_names -> map to_lower t = m -> t = n.
Proof.
  intros n d y t r [Hn Hm] Hd E m Im Em. apply app_eq_app in E as (z & [[E E2]|[E E2]]).
  - rewrite E in Hm. rewrite map_app in Hm. specialize (Hm m (map to_lower z) Im). rewrite Em in Hm. specialize (Hm eq_refl). apply map_eq_nil in Hm. subst z. now rewrite app_nil_r in E.
  - destruct z as [|z0 z]; [now rewrite app_nil_r in E|]. injection E2 as <- _. exfalso.
    assert (J : In (to_lower d) m) by (rewrite <- Em, E; apply in_map; apply in_or_app; right; now left).
    pose proof (name_chars m _ Im J) as X. unfold to_lower, is_alnum, is_alpha, is_digit, is_upper, is_lower in *. destruct ((65 <=? d) && (d <=? 90))%N eqn:B; lia.
Qed.
Lemma split_first : forall (m : str) l, In m l -> exists a b, l = a ++ m :: b /\ ~ In m a.
Proof.
  intros m l I. induction l as [|x l IH]; [destruct I|]. destruct (list_eq_dec N.eq_dec x m) as [->|N]; [exists [], l; split; [reflexivity|intros []]|].
  destruct I as [I|I]; [contradiction|]. destruct (IH I) as (a & b & -> & Na). exists (x :: a), b. split; [reflexivity|]. intros [J|J]; contradiction.
Qed.
Lemma name_first : forall n d y, block_tag n -> is_alnum d = false -> SpecInline.first_of (map SpecBlock.any_case SpecBlock.block_names) (n ++ d :: y) n (d :: y).
Proof.
  intros n d y Hn Hd. pose proof (proj1 Hn) as I. destruct (split_first _ _ I) as (a & b & E & Na).
  assert (Ia : forall x, In x a -> In x SpecBlock.block_names) by (intros x J; rewrite E; apply in_or_app; now left).
  rewrite E, map_app. cbn [map]. apply first_no; [|now split]. apply Forall_map, Forall_forall. intros m Im (t & r & E2 & E3).
  apply Na. assert (t = n) by (eapply (name_cut n d y t r Hn Hd E2 m); auto). subst t. now rewrite E3.
Qed.
Lemma same_text : forall s : str, list_eqb N.eqb s s = true.
Proof. induction s as [|c s IH]; [reflexivity|]. cbn. now rewrite N.eqb_refl. Qed.
Lemma name_no_raw : forall n d y, block_tag n -> is_alnum d = false -> ~ SpecInline.applies SpecBlock.html1 (ch "<" :: n ++ d :: y).
Proof.
  intros n d y [Hn _] Hd (v & r & t & x & body & e & -> & E & I & _). injection E as E. rewrite <- !app_assoc in E.
  apply app_eq_app in E as (z & [[E _]|[E E2]]).
  - assert (X : existsb (fun m => existsb (fun q => list_eqb N.eqb q (firstn (len q) m)) SpecBlock.raw_names) SpecBlock.block_names = false) by reflexivity.
    enough (Y : existsb (fun m => existsb (fun q => list_eqb N.eqb q (firstn (len q) m)) SpecBlock.raw_names) SpecBlock.block_names = true) by congruence.
    apply existsb_exists. exists (map to_lower n). split; [exact Hn|]. apply existsb_exists. exists (map to_lower t). split; [exact I|]. subst n. rewrite map_app, firstn_app, firstn_all, Nat.sub_diag. cbn [firstn]. rewrite app_nil_r. apply same_text.
  - destruct z as [|z0 z].
    + rewrite app_nil_r in E. subst t. assert (X : existsb (fun m => existsb (list_eqb N.eqb m) SpecBlock.raw_names) SpecBlock.block_names = false) by reflexivity.
      enough (Y : existsb (fun m => existsb (list_eqb N.eqb m) SpecBlock.raw_names) SpecBlock.block_names = true) by congruence.
      apply existsb_exists. exists (map to_lower n). split; [exact Hn|]. apply existsb_exists. exists (map to_lower n). split; [exact I|]. apply same_text.
    + injection E2 as <- _. assert (J : In (to_lower d) (map to_lower t)) by (subst t; apply in_map; apply in_or_app; right; now left).
      assert (X : forall m c, In m SpecBlock.raw_names -> In c m -> is_lower c = true).
      { intros m c M C. assert (F : forallb (forallb is_lower) SpecBlock.raw_names = true) by reflexivity. rewrite forallb_forall in F. specialize (F m M). rewrite forallb_forall in F. exact (F c C). }
      pose proof (X _ _ I J) as K. unfold to_lower, is_alnum, is_alpha, is_digit, is_upper, is_lower in *. destruct ((65 <=? d) && (d <=? 90))%N eqn:B; lia.
Qed.
Lemma blank_space : forall w, Forall (fun c => c = 32%N \/ c = 9%N) w -> SpecInline.all is_space w.
Proof. intros w F. eapply Forall_impl; [|exact F]. intros c [-> | ->]; reflexivity. Qed.
(** no blank line in [b] before the text goes on with two line breaks *)
Lemma no_blank_line : forall a x b r, ~ In c_cr (a ++ [c_nl]) ->
  (forall u w v, SpecInline.all is_space w -> a ++ [c_nl] <> u ++ c_nl :: w ++ c_nl :: v) ->
  a = x ++ b -> b <> [] -> ~ at_blank_line (b ++ c_nl :: r).
Proof.
  intros a x b r Cr U -> Nb (e1 & w & e2 & q & E & I1 & I2 & W). destruct b as [|d b]; [congruence|].
  assert (e1 = [c_nl]) as ->.
  { destruct I1 as [<-|[<-|[]]]; [reflexivity|]. exfalso. injection E as -> _. apply Cr. apply in_or_app. left. apply in_or_app. right. now left. }
  injection E as -> E. apply blank_space in W. rewrite <- app_assoc in U.
  assert (K : forall w b, (forall v, b ++ [c_nl] <> w ++ c_nl :: v) -> SpecInline.all is_space w -> ~ In c_cr b -> b ++ c_nl :: r <> w ++ e2 ++ q).
  { clear -I2. intros w. induction w as [|y w IH]; intros b N W Cb E.
    - destruct I2 as [<-|[<-|[]]].
      + destruct b as [|z b]; [now apply (N [])|]. injection E as -> _. now apply (N (b ++ [c_nl])).
      + destruct b as [|z b]; [discriminate|]. injection E as -> _. apply Cb. now left.
    - inversion W as [|? ? W1 W2]; subst. destruct b as [|z b]; [injection E as <- _; discriminate W1|]. injection E as -> E. apply (IH b) in E; [exact E| |exact W2|intro I; apply Cb; now right].
      intros v F. apply (N v). cbn [app]. now rewrite F. }
  apply (K w b); [|exact W| |exact E].
  - intros v F. apply (U x w v W). cbn [app]. now rewrite F.
  - intro I. apply Cr. apply in_or_app. left. apply in_or_app. right. now right.
Qed.
Lemma html_tag : forall s r, tag_html s -> r = [] \/ (exists u, r = c_nl :: c_nl :: u) -> SpecBlock.html_at (s ++ r) s r.
Proof.
  intros s r (Cr & o & n & x & a & Io & Hn & Ix & E & U) Hr.
  assert (Ca : ~ In c_cr (a ++ [c_nl])) by (intro I; apply Cr; rewrite E; apply in_or_app; right; apply in_or_app; right; apply in_or_app; now right).
  assert (X : exists d x', x = d :: x' /\ is_alnum d = false) by (cbn in Ix; destruct Ix as [<-|[<-|[<-|[]]]]; eexists _, _; split; reflexivity).
  destruct X as (d & x' & Ex & Hd).
  assert (H6 : SpecBlock.html6 (s ++ r) s r).
  { exists o, n, x. destruct Hr as [->|(u & ->)].
    - exists (a ++ [c_nl]), [], (x ++ a ++ [c_nl]). split; [rewrite E; now rewrite app_nil_r|]. split; [reflexivity|]. split; [exact Io|].
      split; [now rewrite <- app_assoc|]. split; [rewrite Ex; cbn [app]; now apply name_first|]. split; [cbn in Ix; intuition|]. split; [|right; now split].
      split; [now left|]. intros y b Eb Nb [P|P]; [rewrite app_nil_r in P; contradiction|]. rewrite !app_nil_r in P.
      destruct (exists_last Nb) as (b' & z & ->). rewrite app_assoc in Eb. apply app_inj_tail in Eb as [Eb <-].
      destruct b' as [|z' b']; [|apply (no_blank_line a y (z' :: b') [] Ca U Eb) in P; [exact P|discriminate]].
      destruct P as (e1 & w & e2 & q & P & [<-|[<-|[]]] & I2 & _); [|discriminate]. injection P as P. destruct w; [|discriminate]. destruct I2 as [<-|[<-|[]]]; discriminate.
    - exists a, [c_nl], (x ++ a ++ c_nl :: c_nl :: c_nl :: u). split; [exact E|]. split; [reflexivity|]. split; [exact Io|]. split; [reflexivity|].
      split; [rewrite Ex; cbn [app]; now apply name_first|]. split; [cbn in Ix; intuition|]. split; [|left; now left].
      split; [right; exists [c_nl], [], [c_nl], (c_nl :: u); repeat split; [now left|now left|constructor]|].
      intros y b Eb Nb [P|P]; [destruct b; discriminate P|]. now apply (no_blank_line a y b _ Ca U Eb Nb) in P. }
  unfold SpecBlock.html_at. cbn [SpecInline.first_of].
  assert (Es : s ++ r = o ++ n ++ d :: x' ++ (a ++ [c_nl]) ++ r) by (rewrite E, Ex; rewrite <- !app_assoc; reflexivity).
  assert (Nn : exists n0 n', n = n0 :: n' /\ is_alnum n0 = true).
  { destruct n as [|n0 n']; [exfalso; destruct Hn as [Hn _]; cbn in Hn; intuition discriminate|]. exists n0, n'. split; [reflexivity|].
    assert (J : In (to_lower n0) (map to_lower (n0 :: n'))) by now left. pose proof (name_chars _ _ (proj1 Hn) J) as K.
    unfold to_lower, is_alnum, is_alpha, is_digit, is_upper, is_lower in *. destruct ((65 <=? n0) && (n0 <=? 90))%N eqn:B; lia. }
  destruct Nn as (n0 & n' & En & Hn0).
  assert (Second : exists c y, s ++ r = ch "<" :: c :: y /\ c <> ch "!" /\ c <> ch "?").
  { rewrite Es. cbn in Io. destruct Io as [<-|[<-|[]]].
    - exists n0. eexists. split; [rewrite En; reflexivity|]. split; intros ->; discriminate Hn0.
    - eexists _, _. split; [reflexivity|]. split; discriminate. }
  destruct Second as (c & y & Ey & N1 & N2).
  right. split.
  { rewrite Es. cbn in Io. destruct Io as [<-|[<-|[]]]; [now apply name_no_raw|]. cbn [lit app]. apply no_raw. cbn. intuition discriminate. }
  right. split; [apply not_closed; intros t F; rewrite Ey in F; injection F as F _; now apply N1|].
  right. split; [apply not_closed; intros t F; rewrite Ey in F; injection F as F _; now apply N2|].
  right. split.
  { intros (v & r' & z & Uz & b & -> & F & _). rewrite Ey in F. cbn [lit app] in F. injection F as F _. now apply N1. }
  right. split; [apply not_closed; intros t F; rewrite Ey in F; injection F as F _; now apply N1|].
  left. exact H6.
Qed.
(** *** Complete tags *)
Lemma name_same : forall a b d e y z, SpecInline.all SpecBlock.tag_char a -> SpecInline.all SpecBlock.tag_char b -> SpecBlock.tag_char d = false -> SpecBlock.tag_char e = false ->
  a ++ d :: y = b ++ e :: z -> a = b.
Proof.
  intros a. induction a as [|c a IH]; intros [|c' b] d e y z Fa Fb Hd He E; [reflexivity|..].
  - injection E as -> _. inversion Fb; congruence.
  - injection E as -> _. inversion Fa; congruence.
  - injection E as -> E. inversion Fa; inversion Fb; subst. f_equal. apply (IH b d e y z); assumption.
Qed.
Lemma name_tag : forall m t, In (map to_lower t) m -> (m = SpecBlock.block_names \/ m = SpecBlock.raw_names) -> SpecInline.all SpecBlock.tag_char t.
Proof.
  intros m t I Hm. apply Forall_forall. intros c C. apply (in_map to_lower) in C.
  assert (K : is_alnum (to_lower c) = true).
  { destruct Hm as [-> | ->].
    - pose proof (name_chars _ _ I C) as X. now apply andb_prop in X.
    - assert (F : forallb (forallb is_alnum) SpecBlock.raw_names = true) by reflexivity. rewrite forallb_forall in F. specialize (F _ I). rewrite forallb_forall in F. exact (F _ C). }
  unfold SpecBlock.tag_char, to_lower, is_alnum, is_alpha, is_digit, is_upper, is_lower in *. destruct ((65 <=? c) && (c <=? 90))%N eqn:B; lia.
Qed.
Lemma tag_behind : forall x, (x = lit " " \/ x = lit "/>" \/ x = lit ">" \/ SpecInline.is_eol x) -> exists d x', x = d :: x' /\ SpecBlock.tag_char d = false.
Proof. intros x [-> |[-> |[-> |[-> | ->]]]]; eexists _, _; split; reflexivity. Qed.
Lemma html_lone : forall s r, lone_html s -> SpecBlock.html_at (s ++ r) s r.
Proof.
  intros s r (Cr & t & x & a & w & (o & c & n & d & u & Io & Et & Hc & Hn & Hd & Nb & Ht) & Ix & Hw & E & U).
  assert (Ca : ~ In c_cr (a ++ [c_nl])).
  { intro I. apply Cr. rewrite E. apply in_or_app. right. right. apply in_app_or in I as [I|[I|[]]]; [apply in_or_app; now left|discriminate]. }
  assert (Es : s ++ r = o ++ (c :: n) ++ d :: u ++ x :: (a ++ c_nl :: w ++ [c_nl]) ++ r) by (rewrite E, Et; repeat (progress (rewrite <- ?app_assoc; cbn [app])); reflexivity).
  assert (Fcn : SpecInline.all SpecBlock.tag_char (c :: n)). { constructor; [|exact Hn]. unfold SpecBlock.tag_char, is_alnum. now rewrite Hc. }
  assert (Second : exists e y, s ++ r = ch "<" :: e :: y /\ e <> ch "!" /\ e <> ch "?").
  { rewrite Es. cbn in Io. destruct Io as [<-|[<-|[]]].
    - eexists _, _. split; [reflexivity|]. split; intros ->; discriminate Hc.
    - eexists _, _. split; [reflexivity|]. split; discriminate. }
  destruct Second as (e & y & Ey & N1 & N2).
  unfold SpecBlock.html_at. cbn [SpecInline.first_of].
  right. split.
  { cbn in Io. destruct Io as [<-|[<-|[]]]; [|rewrite Es; cbn [lit app]; apply no_raw; cbn; intuition discriminate].
    intros (v & r' & t' & x' & body & e' & -> & E' & I' & Hx' & _).
    assert (X' : exists d' x2, x' = d' :: x2 /\ SpecBlock.tag_char d' = false) by (apply tag_behind; intuition). destruct X' as (d' & x2 & -> & Hd').
    rewrite Es in E'. cbn [lit app] in E'. injection E' as E'. rewrite <- !app_assoc in E'. cbn [app] in E'.
    assert (S : t' = c :: n) by (eapply name_same; [eapply name_tag; [exact I'|now right]|exact Fcn|exact Hd'|exact Hd|symmetry; exact E']). subst t'.
    destruct Ht as [Ht|Ht]; [|destruct (Ht []) as (m & n2 & w2 & F & _); rewrite Et in F; injection F as F _; subst c; discriminate Hc].
    destruct (Ht []) as (m & n2 & m1 & l & m2 & w2 & c2 & F & (L & _) & Nr & _). rewrite Et in F. cbn [lit app] in F. injection F as F.
    destruct L as (Lm & Lf & Ls). apply Nr. replace n2 with (c :: n); [exact I'|].
    rewrite app_nil_r in F. rewrite <- F in Lm. cbn [app] in Lm.
    destruct m1 as [|d1 m1]; [exfalso; rewrite app_nil_r in Lm; assert (J : In d n2) by (rewrite <- Lm; right; apply in_or_app; right; now left); unfold SpecInline.all in Lf; rewrite Forall_forall in Lf; rewrite (Lf d J) in Hd; discriminate|].
    eapply (name_same (c :: n) n2); [exact Fcn|exact Lf|exact Hd| |exact Lm]. apply Ls; now exists m1. }
  right. split; [apply not_closed; intros z F; rewrite Ey in F; injection F as F _; now apply N1|].
  right. split; [apply not_closed; intros z F; rewrite Ey in F; injection F as F _; now apply N2|].
  right. split.
  { intros (v & r' & z & Uz & b & -> & F & _). rewrite Ey in F. cbn [lit app] in F. injection F as F _. now apply N1. }
  right. split; [apply not_closed; intros z F; rewrite Ey in F; injection F as F _; now apply N1|].
  right. split.
  { intros (v & r' & o' & t' & x' & body & e' & m & -> & E' & Io' & -> & F & Hx' & _).
    apply tag_behind in Hx' as (d' & x2 & -> & Hd').
    assert (I' : In (map to_lower t') SpecBlock.block_names).
    { clear -F. induction SpecBlock.block_names as [|q l IH]; [destruct F|]. cbn [map SpecInline.first_of] in F. destruct F as [(_ & F)|(_ & F)]; [now left|right; auto]. }
    assert (Ft : SpecInline.all SpecBlock.tag_char t') by (eapply name_tag; [exact I'|now left]).
    assert (T0 : exists c0 t0, t' = c0 :: t0 /\ SpecBlock.tag_char c0 = true).
    { destruct t' as [|c0 t0]; [exfalso; cbn in I'; intuition discriminate|]. inversion Ft; subst. eauto. }
    destruct T0 as (c0 & t0 & E0 & Hc0). rewrite Es in E'. rewrite <- !app_assoc in E'. cbn [app] in E'.
    assert (So : o = o').
    { cbn in Io, Io'. destruct Io as [<-|[<-|[]]], Io' as [<-|[<-|[]]]; try reflexivity; exfalso; subst t'; cbn [lit app] in E'; injection E' as E'; subst; discriminate. }
    subst o'. apply app_inv_head in E'. apply Nb. replace (c :: n) with t'; [exact I'|].
    eapply (name_same t' (c :: n)); [exact Ft|exact Fcn|exact Hd'|exact Hd|symmetry; exact E']. }
  left. exists t, [x], a, (c_nl :: w ++ [c_nl]). split; [now rewrite E|]. split; [reflexivity|].
  assert (Er : s ++ r = t ++ [x] ++ a ++ (c_nl :: w ++ [c_nl]) ++ r) by (rewrite E; repeat (progress (rewrite <- ?app_assoc; cbn [app])); reflexivity).
  rewrite Er. split; [destruct Ht as [Ht|Ht]; [left|right]; apply Ht|].
  split; [destruct Ix as [<-|[<-|[]]]; [now left|right; now left]|]. split.
  - split; [right; exists [c_nl], w, [c_nl], r; split; [cbn [app]; now rewrite <- app_assoc|split; [now left|split; [now left|]]]|].
    + eapply Forall_impl; [|exact Hw]. intros z Hz. unfold is_space in Hz. lia.
    + intros z b Eb Nz [P|P]; [destruct b; discriminate P|]. now apply (no_blank_line a z b _ Ca U Eb Nz) in P.
  - left. exists [c_nl], w, [c_nl]. split; [reflexivity|]. split; [now left|]. split; [now left|exact Hw].
Qed.
Section Html.
Variables (entities : str -> option str) (punct : char -> bool) (upper : char -> str).
Let cfg := default_config entities punct upper.
Local Notation rec := (block_ cfg).
Local Notation reads_at := (RoundBlocks.reads_at entities punct upper).
(** [s] is read as an HTML block, before anything that may follow *)
Definition html_here (j : nat) (s : str) : Prop :=
  (exists t, s = ch "<" :: t) /\ forall r, r = [] \/ (exists u, r = sepk j ++ u) -> SpecBlock.html_at (s ++ r) s r.
Lemma closed_here_html : forall j s, closed_html s -> html_here j s.
Proof. intros j s H. split; [now apply closed_head|]. intros r _. now apply html_closed. Qed.
Lemma tag_here_html : forall s, tag_html s -> html_here 0 s.
Proof.
  intros s H. split.
  - destruct H as (_ & o & n & x & a & I & _ & _ & -> & _). cbn in I. destruct I as [<-|[<-|[]]]; eexists; reflexivity.
  - intros r Hr. apply html_tag; [exact H|]. destruct Hr as [->|(u & ->)]; [now left|right]. now exists u.
Qed.
Lemma lone_here_html : forall j s, lone_html s -> html_here j s.
Proof.
  intros j s H. split; [|intros r _; now apply html_lone].
  destruct H as (_ & t & x & a & w & (o & c & n & d & u & I & -> & _) & _ & _ & -> & _). cbn in I. destruct I as [<-|[<-|[]]]; eexists; reflexivity.
Qed.
Lemma reads_html : forall w j m k s, k <= 3 -> html_here j s -> reads_at w j m (rep k c_sp ++ s) (BHtmlBlock s).
Proof.
  intros w j m k s Hk ((u & E) & Hs). assert (Hi : inked (ch "<")) by (repeat split; discriminate).
  split. { exists k, (ch "<"), u. now rewrite E. }
  intros r Hr. exists r. split; [now right|]. rewrite <- app_assoc.
  assert (T : p_html_block (rep k c_sp ++ s ++ r) = Ok r s).
  { eapply SyntaxFacts.exact_ok; [apply SyntaxHtml.exact_html_block|]. constructor; [exact Hk|]. apply Hs. destruct Hr as [->|(v & _ & _ & ->)]; [now left|right; now exists v]. }
  rewrite E in *. cbn [app] in *.
  rewrite alts_eq.
  rewrite or_e by (apply one_map_e; apply code_block_e; (assumption || discriminate)).
  rewrite or_e by (apply one_map_e; apply heading_e; try assumption; left; discriminate).
  rewrite or_e.
  2:{ apply one_e. apply no_paragraph; [exact Hi|]. do 6 apply Exists_cons_tl. apply Exists_cons_hd. exists r, tt.
      cbn [conditional_unit default_config b_html_block]. unfold p_unit, value, pmap, bind, ret. now rewrite T. }
  rewrite or_e by (apply one_e; apply pmap_e; apply thematic_e; (assumption || discriminate)).
  unfold tail_alts. fold cfg.
  rewrite or_e by (apply alert_e; (assumption || discriminate)).
  rewrite or_e by (apply one_map_e; apply blockquote_e; (assumption || discriminate)).
  rewrite or_e by (apply one_map_e; apply list_e; apply item_lines_e; try assumption; left; apply marker_e; (reflexivity || discriminate)).
  apply or_ok. now apply one_map_ok.
Qed.
End Html.
