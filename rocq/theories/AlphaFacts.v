(** Proof of C101: every rule of the grammars (C69, C70) is kept by an exchange
    of characters. *)
From Coq Require Import String Lia ZifyBool NArith.
From Verif Require Import SpecParser Nom NomFacts ParserInline ParserInlineFacts ParserBlock ParserTotal SyntaxDoc SpecInline SpecBlock ShapeFacts CharFacts SpecChars CharTree SpecAlpha SpecInline SpecBlock.
Import ListNotations.
Open Scope list_scope.

Section Alpha.
  Variable cfg : config.
  Notation ok := (exchange cfg).
  Lemma ok_sym : forall f g, ok f g -> ok g f.
  Proof.
    intros f g H. destruct H. assert (lo : forall c, (c < 128)%N -> g c = c) by (intros c K; rewrite <- (ex_ascii c K) at 1; apply ex_back).
    constructor; auto.
    - intros c. rewrite <- (ex_forth c) at 2. now rewrite ex_space.
    - intros c. rewrite <- (ex_forth c) at 2. now rewrite ex_punct.
    - intros c K. assert (K' : (128 <= g c)%N). { destruct (N.lt_ge_cases (g c) 128) as [X|X]; [|exact X]. apply ex_ascii in X as Y. rewrite ex_forth in Y. lia. }
      rewrite <- (ex_forth c) at 2. rewrite (ex_upper _ K'). rewrite map_map. erewrite map_ext; [now rewrite map_id|]. intros; now rewrite ex_back.
  Qed.
  Section One.
    Variables f g : char -> char.
    Hypothesis H : ok f g.
    Notation F := (map f).
    Lemma lo : forall c, (c < 128)%N -> f c = c. Proof. apply H. Qed.
    Lemma hi : forall c, (128 <= c)%N -> (128 <= f c)%N.
    Proof.
      intros c K. destruct (N.lt_ge_cases (f c) 128) as [X|X]; [|exact X]. pose proof (ex_ascii _ _ _ (ok_sym _ _ H) _ X) as Y. rewrite (ex_back _ _ _ H) in Y. lia.
    Qed.
    Lemma inj : forall a b, f a = f b -> a = b.
    Proof. intros a b E. rewrite <- (ex_back _ _ _ H a), E. apply H. Qed.
    Lemma lo_iff : forall c x, (x < 128)%N -> (f c = x <-> c = x).
    Proof. intros c x K. split; [intro E; apply inj; now rewrite (lo x K)|intros ->; now apply lo]. Qed.
    Lemma lo1 : forall c x, f c = x -> (x < 128)%N -> c = x.
    Proof. intros c x E K. now apply lo_iff. Qed.
    Lemma back : forall s, map g (F s) = s.
    Proof. intros s. rewrite map_map. erewrite map_ext; [apply map_id|]. apply H. Qed.
    Lemma cls : forall (p : char -> bool) b, (forall c, (128 <= c)%N -> p c = b) -> forall c, p (f c) = p c.
    Proof.
      intros p b K c. destruct (N.lt_ge_cases c 128) as [X|X]; [now rewrite (lo c X)|]. rewrite (K c X). apply K. now apply hi.
    Qed.
    Lemma fix_lit : forall l, Forall (fun c => (c < 128)%N) l -> F l = l.
    Proof. intros l K. induction K as [|x l X _ IH]; [reflexivity|]. cbn [map]. now rewrite (lo x X), IH. Qed.
    Lemma fix_rep : forall n c, F (rep n c) = rep n (f c).
    Proof. intros n c. unfold rep. induction n as [|n IH]; [reflexivity|]. cbn [repeat map]. now rewrite IH. Qed.
    Lemma in_lo : forall x s, (x < 128)%N -> (In x (F s) <-> In x s).
    Proof.
      intros x s K. split; intro I; [apply in_map_iff in I as (y & E & I); apply (lo_iff y x K) in E; now subst|].
      rewrite <- (lo x K). now apply in_map.
    Qed.
    Lemma in_class : forall c l, Forall (fun c => (c < 128)%N) l -> (In (f c) l <-> In c l).
    Proof.
      intros c l K. split; intro I.
      - pose proof (proj1 (Forall_forall _ _) K _ I) as X. cbv beta in X. pose proof (proj1 (lo_iff c (f c) X) eq_refl) as E. now rewrite <- E in I.
      - pose proof (proj1 (Forall_forall _ _) K _ I) as X. cbv beta in X. now rewrite (lo c X).
    Qed.
    Lemma in_cl : forall c l, In (f c) l -> Forall (fun c => (c < 128)%N) l -> In c l.
    Proof. intros c l I K. now apply in_class. Qed.
    Lemma starts : forall x s, (x < 128)%N -> (begins_with x (F s) <-> begins_with x s).
    Proof.
      intros x s K. split; intros (t & E).
      - destruct s as [|c s]; [discriminate E|]. injection E as E _. apply (lo_iff c x K) in E. subst. now exists s.
      - subst. exists (F t). cbn [map]. now rewrite (lo x K).
    Qed.
    Lemma all_map : forall (p : char -> bool) s, (forall c, p (f c) = p c) -> (all p (F s) <-> all p s).
    Proof. intros p s K. unfold all. rewrite Forall_map. split; apply Forall_impl; intros c; now rewrite K. Qed.
    Lemma fix_all : forall p s, all p s -> (forall c, p c = true -> (c < 128)%N) -> F s = s.
    Proof. intros p s A K. apply fix_lit. revert A. apply Forall_impl. auto. Qed.
    Lemma nil_map : forall s : str, F s <> [] <-> s <> [].
    Proof. intros [|c s]; cbn; split; congruence. Qed.
    Lemma split_map : forall s a b, F s = a ++ b -> exists a' b', s = a' ++ b' /\ a = F a' /\ b = F b'.
    Proof.
      intros s a b E. exists (map g a), (map g b). rewrite <- map_app, <- E, back. pose proof (ok_sym _ _ H) as H'.
      repeat split; rewrite map_map; (erewrite map_ext; [symmetry; apply map_id|]); apply H.
    Qed.
  End One.

  (** ** Tactics *)
  Ltac conjs := repeat match goal with |- _ /\ _ => apply conj end.
  Ltac asc := repeat constructor.
  Ltac norm H := repeat first
    [ progress rewrite ?map_app
    | progress cbn [map]
    | rewrite fix_rep
    | match goal with |- context [map ?f (lit ?x)] => rewrite (fix_lit f _ H (lit x)) by asc end
    | match type of H with exchange _ ?f _ => match goal with |- context [f ?c] => rewrite (lo f _ H c) by reflexivity end end ].
  Ltac ground := repeat match goal with
    | |- context [ch ?s] => let x := eval vm_compute in (ch s) in change (ch s) with x
    | |- context [lit ?s] => let x := eval vm_compute in (lit s) in change (lit s) with x
    end.
  Ltac cl := intros c K; unfold char in *; unfold tag_char, attr_char, value_char, is_gap, is_space, scheme_char, uri_char, user_char, host_char, bare_char, word_char, is_alnum, is_alpha, is_upper, is_lower, is_digit, is_ascii_punct; ground; cbn [existsb]; lia.
  Definition EP (P : str -> Prop) : Prop := forall f g, ok f g -> forall s, P s -> P (map f s).
  Lemma neg : forall P, EP P -> forall f g, ok f g -> forall s, ~ P s -> ~ P (map f s).
  Proof. intros P E f g H s N K. apply N. apply (E g f (ok_sym _ _ H)) in K. now rewrite (back f g H) in K. Qed.
  Definition ER {A} (m : (char -> char) -> A -> A) (R : rule A) : Prop := forall f g, ok f g -> forall s x r, R s x r -> R (map f s) (m f x) (map f r).
  Lemma applies_E : forall A m (R : rule A), ER m R -> EP (applies R).
  Proof. intros A m R E f g H s (x & r & X). exists (m f x), (map f r). now apply (E f g). Qed.

  Section Classes.
    Variables f g : char -> char.
    Hypothesis H : ok f g.
    Lemma c_space : forall c, is_space (f c) = is_space c. Proof. apply (cls f g H _ false). cl. Qed.
    Lemma c_gap : forall c, is_gap (f c) = is_gap c. Proof. apply (cls f g H _ false). cl. Qed.
    Lemma c_scheme : forall c, scheme_char (f c) = scheme_char c. Proof. apply (cls f g H _ false). cl. Qed.
    Lemma c_uri : forall c, uri_char (f c) = uri_char c. Proof. apply (cls f g H _ true). cl. Qed.
    Lemma c_user : forall c, user_char (f c) = user_char c. Proof. apply (cls f g H _ false). cl. Qed.
    Lemma c_host : forall c, host_char (f c) = host_char c. Proof. apply (cls f g H _ false). cl. Qed.
    Lemma c_bare : forall c, bare_char (f c) = bare_char c. Proof. apply (cls f g H _ true). cl. Qed.
    Lemma c_word : forall c, word_char (f c) = word_char c. Proof. apply (cls f g H _ false). cl. Qed.
    Lemma c_alnum : forall c, is_alnum (f c) = is_alnum c. Proof. apply (cls f g H _ false). cl. Qed.
    Lemma c_alpha : forall c, is_alpha (f c) = is_alpha c. Proof. apply (cls f g H _ false). cl. Qed.
    Lemma c_upper : forall c, is_upper (f c) = is_upper c. Proof. apply (cls f g H _ false). cl. Qed.
    Lemma c_tag : forall c, tag_char (f c) = tag_char c. Proof. apply (cls f g H _ false). cl. Qed.
    Lemma c_attr : forall c, attr_char (f c) = attr_char c. Proof. apply (cls f g H _ false). cl. Qed.
    Lemma c_value : forall c, value_char (f c) = value_char c. Proof. apply (cls f g H _ true). cl. Qed.
    Lemma c_punct : forall c, is_ascii_punct (f c) = is_ascii_punct c. Proof. apply (cls f g H _ false). cl. Qed.
  End Classes.

  (** ** Inline rules *)
  Ltac below := intros c K; unfold char in *; unfold word_char, scheme_char, user_char, host_char, is_gap, is_space, is_alnum, is_alpha, is_upper, is_lower, is_digit, is_ascii_punct in K; revert K; ground; cbn [existsb]; intro K; lia.
  Ltac am H L := apply (proj2 (all_map _ _ _ (L _ _ H))); assumption.
  Lemma e_uri : EP uri.
  Proof.
    intros f g H s (c & a & b & -> & A & N & B & C). exists (f c), (map f a), (map f b). norm H. repeat apply conj.
    - reflexivity.
    - now rewrite (c_alpha f g H).
    - now apply nil_map.
    - am H c_scheme.
    - am H c_uri.
  Qed.
  Lemma e_email : EP email.
  Proof.
    intros f g H s (a & b & -> & A & B & C & D). exists (map f a), (map f b). norm H. repeat apply conj.
    - reflexivity.
    - now apply nil_map.
    - now apply nil_map.
    - am H c_user.
    - am H c_host.
  Qed.
  Lemma e_autolink_at : forall f g, ok f g -> forall s u r, autolink_at s u r -> autolink_at (map f s) (map f u) (map f r).
  Proof.
    intros f g H s u r (-> & U). split; [now norm H|]. destruct U as [U|U]; [left; now apply (e_uri f g)|right; now apply (e_email f g)].
  Qed.
  Lemma e_angle : forall f g, ok f g -> forall s t, angle_text s t -> angle_text (map f s) (map f t).
  Proof.
    intros f g H s t X. induction X as [|c s t I X IH|c s t I D X IH]; [constructor| |].
    - norm H. assert (E : f c = c) by (destruct I as [<-|[<-|[]]]; now norm H). rewrite E. now apply angle_esc.
    - cbn [map]. apply angle_char; [|intros E|exact IH].
      + intro K. apply I. apply (in_cl f g H _ _ K). asc.
      + apply (proj1 (lo_iff f g H c (ch "\") eq_refl)) in E. destruct (D E) as (d & u & -> & N). exists (f d), (map f u). split; [reflexivity|].
        intro K. apply N. apply (in_cl f g H _ _ K). asc.
  Qed.
  Lemma e_bare : EP bare_text.
  Proof.
    intros f g H s X. induction X as [|c s X IH|c s B X IH|a s A IHA X IH]; norm H; [constructor|now constructor| |now apply bare_parens].
    apply bare_one; [now rewrite (c_bare f g H)|exact IH].
  Qed.
  Lemma e_stops : EP bare_stops.
  Proof.
    intros f g H [|c r] X; [exact I|]. destruct X as (A & B & C). split; [|split].
    - now rewrite (c_bare f g H).
    - intro E. apply B. exact (lo1 f g H _ _ E ltac:(first [assumption|reflexivity])).
    - intros K. apply C. destruct K as (a & t & E & Ba). exists (map g a), (map g t). pose proof (ok_sym _ _ H) as H'. split; [|now apply (e_bare g f)].
      apply (f_equal (map g)) in E. rewrite <- (back f g H (c :: r)). cbn [map] in *. rewrite E. norm H'. reflexivity.
  Qed.
  Lemma e_dest : forall f g, ok f g -> forall s d r, destination_at s d r -> destination_at (map f s) (map f d) (map f r).
  Proof.
    intros f g H s d r X. destruct X as [raw d r A|d r N B S0|d B]; norm H.
    - apply dest_angle. now apply (e_angle f g).
    - apply dest_bare; [now apply nil_map|now apply (e_bare f g)|now apply (e_stops f g)].
    - apply dest_backslash. now apply (e_bare f g).
  Qed.
  Lemma e_title : forall f g, ok f g -> forall c, (c < 128)%N -> forall s t, title_text c s t -> title_text c (map f s) (map f t).
  Proof.
    intros f g H c L s t X. induction X as [|x s t X IH|x s t N1 N2 X IH]; norm H; [constructor|now constructor|].
    apply title_char; [| |exact IH]; intro K.
    - apply N1. exact (lo1 f g H _ _ K ltac:(first [assumption|reflexivity])).
    - apply N2. exact (lo1 f g H _ _ K ltac:(first [assumption|reflexivity])).
  Qed.
  Lemma e_title_at : forall f g, ok f g -> forall s t r, title_at s t r -> title_at (map f s) (map f t) (map f r).
  Proof.
    intros f g H s t r (o & c & raw & I & T & ->). exists o, c, (map f raw).
    assert (L : (o < 128 /\ c < 128)%N) by (cbn in I; decompose [or] I; try contradiction; match goal with E : _ = _ |- _ => injection E as <- <- end; split; reflexivity).
    destruct L as [L1 L2]. split; [exact I|]. split; [now apply (e_title f g)|]. norm H. now rewrite (lo f g H o L1), (lo f g H c L2).
  Qed.
  Lemma e_tail : forall f g, ok f g -> forall s d t r, link_tail_at s (d, t) r -> link_tail_at (map f s) (map f d, option_map (map f) t) (map f r).
  Proof.
    intros f g H s d t r (w1 & s1 & s2 & s3 & w3 & -> & W1 & D & T & -> & W3). cbn [fst snd] in *.
    exists (map f w1), (map f s1), (map f s2), (map f (w3 ++ lit ")" ++ r)), (map f w3). cbn [fst snd]. repeat apply conj.
    - now norm H.
    - am H c_gap.
    - now apply (e_dest f g).
    - destruct T as [[-> ->]|(w2 & m & u & -> & -> & W2 & T)]; [left; now split|]. right. exists (map f w2), (map f m), (map f u). repeat apply conj.
      + reflexivity.
      + now norm H.
      + am H c_gap.
      + now apply (e_title_at f g).
    - now norm H.
    - am H c_gap.
  Qed.
  Lemma e_label : forall f g, ok f g -> forall s t, label_text s t -> label_text (map f s) (map f t).
  Proof.
    intros f g H s t X. induction X as [|s t X IH|c s t N D X IH]; norm H; [constructor|now constructor|].
    apply label_char; [intro K; apply N; exact (lo1 f g H _ _ K eq_refl)| |exact IH].
    intro K. pose proof (lo1 f g H _ _ K eq_refl) as K1. clear K.  rename K1 into K. destruct (D K) as (d & u & -> & M). exists (f d), (map f u). split; [reflexivity|]. intro E. apply M. exact (lo1 f g H _ _ E ltac:(first [assumption|reflexivity])).
  Qed.
  Lemma e_fits : EP label_fits.
  Proof.
    intros f g H l [A B]. split; [now rewrite map_length|]. apply Exists_exists in B as (c & I & N1 & N2). apply Exists_exists. exists (f c).
    split; [now apply in_map|]. split; intro K; [apply N1|apply N2]; exact (lo1 f g H _ _ K ltac:(first [assumption|reflexivity])).
  Qed.
  Lemma e_bracket : forall f g, ok f g -> forall s t r, bracket_at s t r -> bracket_at (map f s) (map f t) (map f r).
  Proof.
    intros f g H s t r (raw & -> & A & B). exists (map f raw). split; [now norm H|]. split; [now apply (e_label f g)|now apply (e_fits f g)].
  Qed.
  Definition mpiece (f : char -> char) (p : piece) : piece :=
    match p with
    | PAutolink u => PAutolink (map f u)
    | PLink text d t => PLink (map f text) (map f d) (option_map (map f) t)
    | PFootnote l => PFootnote (map f l)
    | PReference text label => PReference (map f text) (option_map (map f) label)
    | PBreak => PBreak
    | PImage d t a => PImage (map f d) (option_map (map f) t) (map f a)
    | PCode c => PCode (map f c)
    | PWord w => PWord (map f w)
    | PEmph n t => PEmph n (map f t)
    | PStrike t => PStrike (map f t)
    | PText t => PText (map f t)
    | PCustom l => PCustom l
    end.
  Lemma r1 : ER mpiece r_autolink.
  Proof. intros f g H s x r [s' u r' A]. constructor. now apply (e_autolink_at f g). Qed.
  Lemma r2 : ER mpiece r_link.
  Proof. intros f g H s x r [s' t m d o r' A B]. apply (R_link _ _ (map f m)); [now apply (e_bracket f g)|now apply (e_tail f g)]. Qed.
  Lemma alnum_lo : forall c, is_alnum c = true -> (c < 128)%N.
  Proof. below. Qed.
  Lemma r3 : ER mpiece r_footnote.
  Proof. intros f g H s x r [l r' N A]. norm H. cbn [mpiece]. constructor; [now apply nil_map|am H c_alnum]. Qed.
  Lemma r4 : ER mpiece r_reference.
  Proof.
    intros f g H s x r X. destruct X as [s t m l r A B|s t r A|s t r A B C]; cbn [mpiece option_map].
    - apply (R_full _ _ (map f m)); now apply (e_bracket f g).
    - apply R_collapsed. apply (e_bracket f g H) in A. revert A. now norm H.
    - apply R_shortcut; [now apply (e_bracket f g)| |].
      + intros l r' K. apply (e_bracket g f (ok_sym _ _ H)) in K. rewrite (back f g H) in K. exact (B _ _ K).
      + intros r' K. apply (f_equal (map g)) in K. rewrite (back f g H) in K. pose proof (ok_sym _ _ H) as H'. revert K. norm H'. apply C.
  Qed.
  Lemma e_eol : EP is_eol.
  Proof. intros f g H s [-> | ->]; [left|right]; now norm H. Qed.
  Lemma r5 : ER mpiece r_break.
  Proof.
    intros f g H s x r X. destruct X as [e r E|n e r N E]; norm H.
    - constructor. now apply (e_eol f g).
    - apply (R_spaces n); [exact N|now apply (e_eol f g)].
  Qed.
  Lemma not_in_lo : forall f g, ok f g -> forall x s, (x < 128)%N -> ~ In x s -> ~ In x (map f s).
  Proof. intros f g H x s L N K. apply N. exact (proj1 (in_lo f g H x s L) K). Qed.
  Lemma r6 : ER mpiece r_image.
  Proof.
    intros f g H s x r X. destruct X as [a d t m r N T]. norm H. cbn [mpiece]. apply R_image; [now apply (not_in_lo f g)|now apply (e_tail f g)].
  Qed.
  Lemma e_norm : forall f g, ok f g -> forall s t, code_norm s t -> code_norm (map f s) (map f t).
  Proof.
    intros f g H s t X. induction X as [|s t X IH|s t X IH|c s t N D X IH]; norm H; [constructor|now constructor|now constructor|].
    apply code_char; [intro K; apply N; exact (lo1 f g H _ _ K eq_refl)| |exact IH].
    intros K u E. pose proof (lo1 f g H _ _ K eq_refl) as K1. destruct s as [|d s]; [discriminate E|]. cbn [map] in E. injection E as E _. apply (D K1 s). f_equal. exact (lo1 f g H _ _ E eq_refl).
  Qed.
  Lemma e_solid : EP (Exists (fun c => is_whitespace c = false)).
  Proof.
    intros f g H s X. apply Exists_exists in X as (c & I & W). apply Exists_exists. exists (f c). split; [now apply in_map|]. now rewrite (ex_space _ _ _ H).
  Qed.
  Lemma e_spaced : EP (fun t => exists u, t = 32%N :: u ++ [32%N] /\ Exists (fun c => is_whitespace c = false) u).
  Proof. intros f g H s (u & -> & X). exists (map f u). split; [now norm H|now apply (e_solid f g)]. Qed.
  Lemma e_content : forall f g, ok f g -> forall s t, code_content s t -> code_content (map f s) (map f t).
  Proof.
    intros f g H s t (u & N & X). exists (map f u). split; [now apply (e_norm f g)|]. destruct X as [[-> X]|[-> X]].
    - left. split; [now norm H|now apply (e_solid f g)].
    - right. split; [reflexivity|]. now apply (neg _ e_spaced f g H).
  Qed.
  Lemma e_ticks : forall f g, ok f g -> forall n, map f (ticks n) = ticks n.
  Proof. intros f g H n. apply (fix_lit f g H). unfold ticks. induction n; constructor; [reflexivity|assumption]. Qed.
  Lemma e_not_head : forall x, (x < 128)%N -> forall f g, ok f g -> forall s, (forall t, s <> x :: t) -> forall t, map f s <> x :: t.
  Proof. intros x L f g H [|c s] N t E; [discriminate E|]. cbn [map] in E. injection E as E _. apply (N s). f_equal. exact (lo1 f g H _ _ E L). Qed.
  Lemma e_closes : forall n, EP (closes n).
  Proof. intros n f g H s (r & -> & N). exists (map f r). split; [rewrite map_app; f_equal; now apply (e_ticks f g)|now apply (e_not_head 96%N eq_refl f g)]. Qed.
  Lemma e_blank_line : EP at_blank_line.
  Proof.
    intros f g H s (e1 & w & e2 & r & -> & I1 & I2 & W). exists (map f e1), (map f w), (map f e2), (map f r).
    assert (K : forall e, In e [[10%N]; [13%N; 10%N]] -> map f e = e) by (intros e [<-|[<-|[]]]; now norm H).
    rewrite (K _ I1), (K _ I2). repeat apply conj; [|exact I1|exact I2|].
    - rewrite !map_app, (K _ I1), (K _ I2). reflexivity.
    - apply Forall_map. revert W. apply Forall_impl. intros c [-> | ->]; [left|right]; now norm H.
  Qed.
  Lemma e_split : forall (P : str -> Prop), EP P -> forall f g, ok f g -> forall body r,
    (forall a b, body = a ++ b -> b <> [] -> ~ P (b ++ r)) -> forall a b, map f body = a ++ b -> b <> [] -> ~ P (b ++ map f r).
  Proof.
    intros P EPP f g H body r N a b E B. apply (split_map f g H) in E as (a' & b' & -> & -> & ->). rewrite <- map_app. apply (neg _ EPP f g H). apply (N a' b' eq_refl). now apply (nil_map f).
  Qed.
  Lemma e_source : forall f g, ok f g -> forall n raw r s, code_span_source n raw r s -> code_span_source n (map f raw) (map f r) (map f s).
  Proof.
    intros f g H n raw r s (-> & N & R & A & B & C). repeat apply conj.
    - rewrite !map_app, (e_ticks f g H). reflexivity.
    - exact N.
    - now apply nil_map.
    - now apply (e_not_head 96%N eq_refl f g).
    - now apply (e_not_head 96%N eq_refl f g).
    - intros a b E NB. rewrite <- (e_ticks f g H n), <- map_app. split.
      + apply (e_split (closes n) (e_closes n) f g H raw _) with (a := a); try assumption. intros a0 b0 E0 N0. now apply (C a0 b0).
      + apply (e_split at_blank_line e_blank_line f g H raw _) with (a := a); try assumption. intros a0 b0 E0 N0. now apply (C a0 b0).
  Qed.
  Lemma r7 : ER mpiece r_code.
  Proof. intros f g H s x r [n raw s' c r' A B]. apply (R_code n (map f raw)); [now apply (e_source f g)|now apply (e_content f g)]. Qed.
  Lemma e_next : forall (p : char -> bool), (forall f g, ok f g -> forall c, p (f c) = p c) -> EP (fun r => forall x, begins_with x r -> p x = false).
  Proof. intros p K f g H [|c r] N x (t & E); [discriminate E|]. cbn [map] in E. injection E as <- _. rewrite (K f g H). apply N. now exists r. Qed.
  Lemma word_lo : forall c, word_char c = true -> (c < 128)%N.
  Proof. below. Qed.
  Lemma alpha_lo : forall c, is_alpha c = true -> (c < 128)%N.
  Proof. below. Qed.
  Lemma r8 : ER mpiece r_word.
  Proof.
    intros f g H s x r [c t r' A B C D E F L]. cbn [mpiece]. rewrite map_cons, map_app. cbn [map]. rewrite (lo f g H c (alpha_lo c A)), (fix_all f g H word_char t B word_lo).
    constructor; try assumption. now apply (e_next word_char c_word f g H).
  Qed.
  (** *** Emphasis *)
  Lemma e_up : forall esc stop, (esc < 128)%N -> EP stop -> forall f g, ok f g -> forall c r, up_to esc stop c r -> up_to esc stop (map f c) (map f r).
  Proof.
    intros esc stop L ES f g H c r X. induction X as [r K|c r K X IH|x c r K D X IH].
    - constructor. now apply (ES f g).
    - norm H. rewrite (lo f g H esc L). apply up_esc; [|exact IH]. apply (neg _ ES f g H) in K. revert K. norm H. now rewrite (lo f g H esc L).
    - cbn [map]. apply up_char; [|intros [E B]|exact IH].
      + apply (neg _ ES f g H) in K. revert K. now norm H.
      + apply D. split; [exact (lo1 f g H _ _ E eq_refl)|]. rewrite <- map_app in B. exact (proj1 (starts f g H _ _ L) B).
  Qed.
  Lemma e_punct : forall f g, ok f g -> forall c, punctuation (punct_table cfg) (f c) <-> punctuation (punct_table cfg) c.
  Proof. intros f g H c. unfold punctuation. now rewrite (c_punct f g H), (ex_punct _ _ _ H). Qed.
  Lemma e_opens : forall m, EP (opens (punct_table cfg) m).
  Proof.
    intros m f g H s (c & t & -> & W & P). exists (f c), (map f t). split; [reflexivity|]. split; [now rewrite (ex_space _ _ _ H)|]. intros E K. apply (P E). now apply (e_punct f g H).
  Qed.
  Lemma e_run : forall t, Forall (fun c => (c < 128)%N) t -> EP (run_closes (punct_table cfg) t).
  Proof.
    intros t L f g H s (r & -> & K). exists (map f r). split; [now rewrite map_app, (fix_lit f g H t L)|]. intros c (u & E). destruct r as [|x r]; [discriminate E|]. cbn [map] in E. injection E as <- _.
    rewrite (ex_space _ _ _ H), (e_punct f g H). apply K. now exists r.
  Qed.
  Lemma e_delimited : forall t, Forall (fun c => (c < 128)%N) t -> ER (fun f => map f) (delimited_by (punct_table cfg) t).
  Proof.
    intros t L f g H s text r (m & -> & B & O & N & U). exists m. pose proof (fix_lit f g H t L) as T. repeat apply conj.
    - now rewrite !map_app, T.
    - exact B.
    - apply (e_opens m f g H) in O. revert O. now rewrite !map_app, T.
    - now apply nil_map.
    - apply (e_up (ch "*") _ eq_refl (e_run t L) f g H) in U. revert U. now rewrite !map_app, T.
  Qed.
  Lemma rep_lo : forall n c, (c < 128)%N -> Forall (fun c => (c < 128)%N) (rep n c).
  Proof. intros n c L. unfold rep. induction n; constructor; assumption. Qed.
  Lemma r9 : ER mpiece (r_emphasis (punct_table cfg)).
  Proof.
    intros f g H s x r [m n s' text r' I N D K]. cbn [mpiece].
    assert (L : (m < 128)%N) by (destruct I as [<-|[<-|[]]]; reflexivity).
    apply (R_emphasis _ m n); [exact I|exact N|now apply (e_delimited _ (rep_lo n m L) f g)|].
    intros n' text' r0 N' X. apply (e_delimited _ (rep_lo n' m L) g f (ok_sym _ _ H)) in X. rewrite (back f g H) in X. exact (K _ _ _ N' X).
  Qed.
  Lemma e_tildes : EP tildes.
  Proof. intros f g H s (r & -> & N). exists (map f r). split; [now norm H|]. intro K. apply N. exact (proj1 (starts f g H (ch "~") _ eq_refl) K). Qed.
  Lemma e_begins : forall x, (x < 128)%N -> EP (begins_with x).
  Proof. intros x L f g H s K. now apply (starts f g H). Qed.
  Lemma r10 : ER mpiece r_strike.
  Proof.
    intros f g H s x r [text r' A N U]. norm H. cbn [mpiece]. apply R_strike.
    - apply (neg _ (e_begins (ch "~") eq_refl) f g H) in A. revert A. now norm H.
    - now apply nil_map.
    - apply (e_up (ch "~") _ eq_refl e_tildes f g H) in U. revert U. now norm H.
  Qed.
  Lemma r_on : forall A B m (b : behavior B) (R : rule A), ER m R -> ER m (on b R).
  Proof. intros A B m b R E f g H s x r [N X]. split; [exact N|now apply (E f g)]. Qed.
  Lemma r_elements : Forall (ER mpiece) (element_rules cfg).
  Proof.
    unfold element_rules. repeat apply Forall_cons; try apply Forall_nil; try apply r_on; [exact r1|exact r2|exact r3|exact r4|exact r5|exact r6|exact r7|exact r8|exact r9|exact r10].
  Qed.
  (** *** Text: no character references *)
  Definition amp (s : str) : Prop := Forall (fun c => c <> ch "&") s.
  Lemma e_amp : EP amp.
  Proof. intros f g H s K. apply Forall_map. revert K. apply Forall_impl. intros c N E. apply N. exact (lo1 f g H _ _ E eq_refl). Qed.
  Lemma no_entity : forall s v r, amp s -> ~ entity_at (html_entities cfg) s v r.
  Proof. intros s v r A X. exact (q_entity (fun c => c <> ch "&") ltac:(intros N; now apply N) cfg _ _ _ X A). Qed.
  Definition EPa (P : str -> Prop) : Prop := forall f g, ok f g -> forall s, amp s -> P s -> P (map f s).
  Definition ERa {A} (m : (char -> char) -> A -> A) (R : rule A) : Prop := forall f g, ok f g -> forall s x r, amp s -> R s x r -> R (map f s) (m f x) (map f r).
  Lemma nega : forall P, EPa P -> forall f g, ok f g -> forall s, amp s -> ~ P s -> ~ P (map f s).
  Proof. intros P E f g H s A N K. apply N. apply (E g f (ok_sym _ _ H)) in K; [|now apply (e_amp f g)]. now rewrite (back f g H) in K. Qed.
  Lemma ER_a : forall A m (R : rule A), ER m R -> ERa m R.
  Proof. intros A m R E f g H s x r _. now apply (E f g). Qed.
  Lemma applies_a : forall A m (R : rule A), ERa m R -> EPa (applies R).
  Proof. intros A m R E f g H s Am (x & r & X). exists (m f x), (map f r). now apply (E f g). Qed.
  Lemma e_special : EPa (special cfg).
  Proof.
    intros f g H s A [X|(v & r & X)]; [|now apply no_entity in X]. left.
    apply Exists_exists in X as (R & I & X). apply Exists_exists. exists R. split; [exact I|]. pose proof (proj1 (Forall_forall _ _) r_elements R I) as E. now apply (applies_E _ _ _ E f g).
  Qed.
  Lemma e_escape : ER (fun f => map f) escape_at.
  Proof. intros f g H s v r [c r' P]. norm H. constructor. now rewrite (c_punct f g H). Qed.
  Lemma e_run_of : ERa (fun f => map f) (run_of cfg).
  Proof.
    intros f g H s v r A X. revert A. induction X as [s E|c s t r N X IH]; intro A.
    - apply run_end. destruct E as [-> | E]; [now left|right]. now apply (e_special f g).
    - cbn [map]. apply run_char; [now apply (nega _ e_special f g H) in N|]. apply IH. now inversion A.
  Qed.
  Lemma e_chunk : ERa (fun f => map f) (chunk cfg).
  Proof.
    intros f g H s v r A X. pose proof (e_amp f g H s A) as A'. destruct X as [X|[[N X]|(N & _ & V & X)]].
    - left. now apply (e_escape f g).
    - now apply no_entity in X.
    - right. right. repeat apply conj.
      + intros v' r' K. apply (e_escape g f (ok_sym _ _ H)) in K. rewrite (back f g H) in K. exact (N _ _ K).
      + intros v' r'. now apply no_entity.
      + now apply nil_map.
      + now apply (e_run_of f g).
  Qed.
  Lemma e_chunks : ERa (fun f => map (map f)) (chunks cfg).
  Proof.
    intros f g H s l r A X. revert A. induction X as [s N|s v m l r C X IH]; intro A.
    - apply chunks_end. intros v r K. apply (e_chunk g f (ok_sym _ _ H)) in K; [|now apply (e_amp f g)]. rewrite (back f g H) in K. exact (N _ _ K).
    - cbn [map]. apply (chunks_more _ _ _ (map f m)); [now apply (e_chunk f g)|]. apply IH. now apply (q_chunk_rest (fun c => c <> ch "&") cfg) in C.
  Qed.
  Lemma r_txt : ERa mpiece (r_text cfg).
  Proof.
    intros f g H s x r A X. revert A. destruct X as [s' l r' N C]. intro A. cbn [mpiece]. rewrite concat_map. apply R_text; [intro E; apply N; now destruct l|exact (e_chunks f g H _ _ _ A C)].
  Qed.
  Hypothesis Hu : no_user_code cfg.
  Lemma r_cust : ER mpiece (r_custom cfg).
  Proof. intros f g H s x r [p s' l r' E X]. destruct Hu as (_ & _ & K & _). congruence. Qed.
  Lemma r_on_a : forall A B m (b : behavior B) (R : rule A), ERa m R -> ERa m (on b R).
  Proof. intros A B m b R E f g H s x r K [N X]. split; [exact N|now apply (E f g)]. Qed.
  Lemma r_inline : Forall (ERa mpiece) (inline_rules cfg).
  Proof.
    unfold inline_rules. apply Forall_app. split; [apply (Forall_impl _ (fun R => ER_a _ mpiece R)), r_elements|].
    repeat apply Forall_cons; try apply Forall_nil; [exact (ER_a _ _ _ r_cust)|apply r_on_a; exact r_txt].
  Qed.
  Lemma e_first : forall A m (l : list (rule A)), Forall (ERa m) l -> ERa m (first_of l).
  Proof.
    intros A m l F f g H s x r K X. induction F as [|R l E F IH]; [destruct X|]. destruct X as [X|[N X]]; [left; now apply (E f g)|right].
    split; [|exact (IH X)]. now apply (nega _ (applies_a _ _ _ E) f g H).
  Qed.
  (** ** Block rules *)
  Definition E2 (R : str -> str -> Prop) : Prop := forall f g, ok f g -> forall s r, R s r -> R (map f s) (map f r).
  Lemma neg2 : forall R, E2 R -> forall f g, ok f g -> forall s, (forall r, ~ R s r) -> forall r, ~ R (map f s) r.
  Proof. intros R E f g H s N r K. apply (E g f (ok_sym _ _ H)) in K. rewrite (back f g H) in K. exact (N _ K). Qed.
  Lemma b_end : E2 line_end.
  Proof. intros f g H s r [e r' K|]; [rewrite map_app; constructor; now apply (e_eol f g)|constructor]. Qed.
  Notation M := (fun f : char -> char => map f).
  Lemma b_plain : ER M plain_line.
  Proof.
    intros f g H s v r (m & -> & A & B & C). exists (map f m). repeat apply conj; [now rewrite map_app|now apply (not_in_lo f g)|now apply (not_in_lo f g)|now apply (b_end f g)].
  Qed.
  Lemma last_lo : forall x, (x < 128)%N -> forall f g, ok f g -> forall v, (exists u, map f v = u ++ [x]) -> exists u, v = u ++ [x].
  Proof.
    intros x L f g H v (u & E). apply (split_map f g H) in E as (a & b & -> & _ & E). exists a. f_equal. destruct b as [|c [|? ?]]; try discriminate E. injection E as E. symmetry in E. now rewrite (lo1 f g H _ _ E L).
  Qed.
  Lemma b_text : ER M text_line.
  Proof.
    intros f g H s v r (m & -> & N & A & C & D). exists (map f m). repeat apply conj; [now rewrite map_app|now apply nil_map|now apply (not_in_lo f g)|now apply (b_end f g)|].
    intros [K1 K2]. apply D. split; [exact (proj1 (starts f g H 10%N m eq_refl) K1)|now apply (last_lo 13%N eq_refl f g)].
  Qed.
  Lemma b_blank : ER M blank_line.
  Proof.
    intros f g H s v r (-> & w & m & E & A & B). split; [now rewrite map_app|]. exists (map f w), (map f m). repeat apply conj; [now rewrite E, map_app|am H c_space|now apply (b_end f g)].
  Qed.
  Lemma b_strip : forall k, E2 (strip k).
  Proof.
    intros k f g H s m (j & -> & L & N). exists j. split; [now norm H|]. split; [exact L|]. intros K1 K2. exact (N K1 (proj1 (starts f g H c_sp m eq_refl) K2)).
  Qed.
  Lemma b_repeated : forall A m (R : rule A), ER m R -> ER (fun f => map (m f)) (repeated R).
  Proof.
    intros A m R E f g H s l r X. induction X as [s N|s a k l r X _ IH]; [constructor; now apply (neg _ (applies_E _ _ _ E) f g)|].
    cbn [map]. apply (rep_more _ _ _ (map f k)); [now apply (E f g)|exact IH].
  Qed.
  Lemma b_longest : forall p, (forall f g, ok f g -> forall c, p (f c) = p c) -> ER M (longest p).
  Proof.
    intros p K f g H s v r (-> & A & N). split; [now rewrite map_app|]. split; [now apply all_map, A; apply (K f g)|]. now apply (e_next p K f g H).
  Qed.
  Lemma b_until : forall P, EP P -> forall f g, ok f g -> forall body r, until P body r -> until P (map f body) (map f r).
  Proof. intros P E f g H body r [A B]. split; [now apply (E f g)|]. now apply (e_split P E f g H). Qed.
  Lemma b_space_all : forall f g, ok f g -> forall s, all is_whitespace s -> all is_whitespace (map f s).
  Proof. intros f g H s A. apply all_map; [apply (ex_space _ _ _ H)|exact A]. Qed.
  Lemma b_trimmed : E2 trimmed.
  Proof.
    intros f g H s u (a & b & -> & A & B & C & D). exists (map f a), (map f b). repeat apply conj; [now rewrite !map_app|now apply (b_space_all f g)|now apply (b_space_all f g)| |].
    - intros c (t & E). destruct u as [|x u]; [discriminate E|]. injection E as <- _. rewrite (ex_space _ _ _ H). apply C. now exists u.
    - intros v c E. apply (split_map f g H) in E as (a' & b' & -> & _ & E). destruct b' as [|x [|? ?]]; try discriminate E. injection E as ->. rewrite (ex_space _ _ _ H). now apply (D a').
  Qed.
  Definition mshape (f : char -> char) (h : shape) : shape :=
    match h with
    | HCode c => HCode (spell_code f c)
    | HHeading k t => HHeading k (map f t)
    | HText t => HText (map f t)
    | HBreak => HBreak
    | HAlert ty t => HAlert (spell_alert f ty) (map f t)
    | HQuote t => HQuote (map f t)
    | HList k items => HList k (map (fun x => (fst x, map f (snd x))) items)
    | HHtml s => HHtml (map f s)
    | HFootnote l t => HFootnote (map f l) (map f t)
    | HDefinition l d t => HDefinition (map f l) (map f d) (option_map (map f) t)
    | HTable h rows al => HTable (map (map f) h) (map (map (map f)) rows) al
    | HCustom l => HCustom l
    | HLine t => HLine (map f t)
    end.
  Lemma b_join : forall f g, ok f g -> forall ls, map f (join [c_nl] ls) = join [c_nl] (map (map f) ls).
  Proof.
    intros f g H ls. induction ls as [|x [|y l] IH]; [reflexivity|reflexivity|]. cbn [join map] in *. rewrite !map_app. rewrite IH. f_equal. f_equal. now norm H.
  Qed.
  Lemma b_code_line : ER M code_line.
  Proof.
    intros f g H s v r (m & A & B). exists (map f m). split; [|now apply (b_plain f g)]. destruct A as [-> | ->]; [left|right]; now norm H.
  Qed.
  Lemma b_fence_end : forall c n, (c < 128)%N -> E2 (fence_end c n).
  Proof.
    intros c n L f g H s r (k & j & m & -> & A & B & C). exists k, j, (map f m). repeat apply conj; try assumption; [|now apply (b_end f g)]. norm H. now rewrite (lo f g H c L).
  Qed.
  Lemma b_fenced_line : forall k c n, (c < 128)%N -> ER M (fenced_line k c n).
  Proof.
    intros k c n L f g H s v r (N & m & A & B). split; [now apply (neg2 _ (b_fence_end c n L) f g H)|]. exists (map f m). split; [now apply (b_strip k f g)|now apply (b_plain f g)].
  Qed.
  Lemma b_fenced : ER mshape r_fenced.
  Proof.
    intros f g H s x r X. destruct X as [k c n m info m1 ls m2 r A B C D E F G].
    assert (L : (c < 128)%N) by (destruct B as [<-|[<-|[]]]; reflexivity).
    cbn [mshape spell_code]. rewrite (b_join f g H). norm H. rewrite (lo f g H c L).
    apply (R_fenced k c n _ _ (map f m1) _ (map f m2)); try assumption.
    - intro K. exact (D (proj1 (starts f g H c m L) K)).
    - destruct E as [[-> E]|(v & -> & E)]; [left; split; [reflexivity|now apply (b_end f g)]|right; exists (map f v); split; [reflexivity|now apply (b_text f g)]].
    - exact (b_repeated _ _ _ (b_fenced_line k c n L) f g H _ _ _ F).
    - now apply (b_fence_end c n L f g).
  Qed.
  Lemma b_code : ER mshape r_code_block.
  Proof.
    intros f g H s x r X. destruct X as [s ls r N X|s h r X]; [|apply R_fence; now apply (b_fenced f g)].
    cbn [mshape spell_code]. rewrite (b_join f g H). apply R_indented; [intro E; apply N; now destruct ls|]. exact (b_repeated _ _ _ b_code_line f g H _ _ _ X).
  Qed.
  Lemma b_atx : forall bare, ER mshape (r_atx bare).
  Proof.
    intros bare f g H s x r [n w m v r' A B C D E]. cbn [mshape]. norm H. apply R_atx; try assumption.
    - intros K1 K2. rewrite <- map_app in K2. exact (B K1 (proj1 (starts f g H (ch "#") _ eq_refl) K2)).
    - apply (b_longest _ c_space f g H) in C. revert C. now rewrite map_app.
    - intros K. apply D. now destruct w.
    - now apply (b_text f g).
  Qed.
  Lemma b_underline : ER (fun _ x => x) underline.
  Proof.
    intros f g H s x r (k & c & n & w & m & -> & A & B & C & D & E). exists k, c, n, (map f w), (map f m).
    assert (L : (c < 128)%N) by (destruct C as [C|[C|[]]]; injection C as <- <-; reflexivity).
    repeat apply conj; try assumption; [|am H c_space|now apply (b_end f g)]. norm H. now rewrite (lo f g H c L).
  Qed.
  Lemma b_break : ER mshape r_break_line.
  Proof.
    intros f g H s x r [k c n w m r' A B C D E].
    assert (L : (c < 128)%N) by (destruct C as [<-|[<-|[<-|[]]]]; reflexivity).
    cbn [mshape]. norm H. rewrite (lo f g H c L). constructor; try assumption; [am H c_space|now apply (b_end f g)].
  Qed.
  Lemma b_quote_line : ER M quote_line.
  Proof. intros f g H s v r (k & m & -> & A & B). exists k, (map f m). repeat apply conj; [now norm H|exact A|now apply (b_plain f g)]. Qed.
  Lemma e_blank : EP blank.
  Proof.
    intros f g H s X. induction X as [|c s K X IH|s X IH|s X IH]; norm H; try (now constructor). apply blank_sp; [|exact IH]. destruct K as [-> | ->]; [left|right]; now norm H.
  Qed.
  Lemma b_quote : ER mshape r_quote.
  Proof.
    intros f g H s x r [s' ls r' N A B]. cbn [mshape]. rewrite (b_join f g H). apply R_quote; [intro E; apply N; now destruct ls|exact (b_repeated _ _ _ b_quote_line f g H _ _ _ A)|].
    rewrite <- (b_join f g H). now apply (neg _ e_blank f g H).
  Qed.
  Lemma b_upper : forall f g, ok f g -> forall s, upper_text cfg (map f s) = map f (upper_text cfg s).
  Proof.
    intros f g H s. induction s as [|c s IH]; [reflexivity|]. unfold upper_text in *. cbn [map flat_map]. rewrite IH, map_app. f_equal.
    destruct (N.ltb_spec c 128) as [X|X].
    - rewrite (lo f g H c X). rewrite (proj2 (N.ltb_lt c 128) X). cbn [map]. f_equal. symmetry. apply (lo f g H). destruct (is_lower c); unfold char in *; lia.
    - pose proof (hi f g H c X) as Y. rewrite (proj2 (N.ltb_ge (f c) 128) Y). now apply (ex_upper _ _ _ H).
  Qed.
  Lemma b_name : forall f g, ok f g -> forall n t, alert_of_name n t -> map f n = n /\ spell_alert f t = t.
  Proof.
    intros f g H n t [I|((c & u & -> & A & B) & -> & _)].
    - cbn [In standard_alerts] in I. decompose [or] I; try contradiction; match goal with E : _ = _ |- _ => injection E as <- <- end; (split; [now apply (fix_lit f g H); asc|reflexivity]).
    - assert (E : map f (c :: u) = c :: u). { apply (fix_lit f g H). constructor; [now apply alpha_lo|]. revert B. apply Forall_impl. intros x [K| ->]; [now apply alnum_lo|reflexivity]. }
      split; [exact E|]. cbn [spell_alert]. now rewrite E.
  Qed.
  Lemma b_alert : ER mshape (r_alert (upper_text cfg)).
  Proof.
    intros f g H s x r [s' l ls r' u name ty A B C D E]. cbn [mshape]. destruct (b_name f g H _ _ D) as [N1 N2]. rewrite (b_join f g H), N2.
    apply (R_alert _ _ (map f l) _ _ (map f u) name); try assumption.
    - exact (b_repeated _ _ _ b_quote_line f g H _ _ _ A).
    - now apply (b_trimmed f g).
    - rewrite (b_upper f g H), C. norm H. now rewrite N1.
    - rewrite <- (b_join f g H). destruct E as [-> | E]; [now left|right; now apply (neg _ e_blank f g H)].
  Qed.
  (** *** Lists *)
  Lemma digit_lo : forall c v, digit 10 c v -> (c < 128)%N.
  Proof. intros c v [_ D]. assert (L : Forall (fun c => (c < 128)%N) (lit "0123456789abcdef" ++ lit "0123456789ABCDEF")) by asc. apply (proj1 (Forall_forall _ _) L). apply in_app_iff. destruct D as [D|D]; apply nth_error_In in D; [now left|now right]. Qed.
  Lemma num_lo : forall s v, numeral 10 s v -> Forall (fun c => (c < 128)%N) s.
  Proof. intros s v X. induction X as [c v D|s n c v X IH D]; [repeat constructor; now apply digit_lo in D|]. apply Forall_app. split; [exact IH|repeat constructor; now apply digit_lo in D]. Qed.
  Lemma b_marker : ER (fun _ k => k) marker_at.
  Proof.
    intros f g H s k r X. destruct X as [ds n c r D L I|c b r I].
    - rewrite map_app, (fix_lit f g H ds (num_lo _ _ D)). cbn [map].
      assert (E : f c = c) by (destruct I as [<-|[<-|[]]]; now norm H). rewrite E. now constructor.
    - cbn [map]. assert (E : f c = c) by (destruct I as [I|[I|[I|[]]]]; injection I as <- <-; now norm H). rewrite E. now constructor.
  Qed.
  Lemma b_task : ER (fun _ k => k) task_at.
  Proof.
    intros f g H s k r X. destruct X as [c r I|r]; norm H; [|constructor].
    assert (E : f c = c) by (destruct I as [<-|[<-|[]]]; now norm H). rewrite E. now constructor.
  Qed.
  Definition mstart (f : char -> char) (x : start) : start := (fst x, map f (snd x)).
  Lemma b_empty : ER mstart item_empty.
  Proof.
    intros f g H s x r [k s' kind w m r' A B C D]. unfold mstart. cbn [fst snd map]. norm H.
    replace (List.length s' - List.length (w ++ m)) with (List.length (map f s') - List.length (map f w ++ map f m)) by (rewrite <- map_app, !map_length; reflexivity).
    apply Item_empty; try assumption; [apply (b_marker f g H) in B; revert B; now rewrite map_app|am H c_space|now apply (b_end f g)].
  Qed.
  Lemma b_tasked : ER mstart item_task.
  Proof.
    intros f g H s x r [k s' kind j t m1 m r' A B C D E]. unfold mstart. cbn [fst snd map]. norm H.
    replace (List.length s' - List.length m1) with (List.length (map f s') - List.length (map f m1)) by (rewrite !map_length; reflexivity).
    apply (Item_task k _ kind j t (map f m1) (map f m)); try assumption; [apply (b_marker f g H) in B; revert B; now norm H|now apply (b_task f g) in D|now apply (b_end f g)].
  Qed.
  Lemma b_texted : ER mstart item_text.
  Proof.
    intros f g H s x r [k s' kind j m1 t m v r' A B C D E F]. unfold mstart. cbn [fst snd map]. norm H.
    replace (List.length s' - List.length m1) with (List.length (map f s') - List.length (map f m1)) by (rewrite !map_length; reflexivity).
    apply (Item_text k _ kind j (map f m1) t (map f m)); try assumption.
    - apply (b_marker f g H) in B. revert B. now norm H.
    - intros K1 K2. exact (D K1 (proj1 (starts f g H c_sp m1 eq_refl) K2)).
    - destruct E as [(y & -> & E)|(-> & -> & E)]; [left; exists y; split; [reflexivity|apply (b_task f g H) in E; revert E; now norm H]|right].
      repeat apply conj; [reflexivity|reflexivity|]. intros y m' K. apply (b_task g f (ok_sym _ _ H)) in K. rewrite (back f g H) in K. pose proof (ok_sym _ _ H) as H'. revert K. norm H'. apply E.
    - now apply (b_plain f g).
  Qed.
  Lemma b_first : forall A m (l : list (rule A)), Forall (ER m) l -> ER m (first_of l).
  Proof.
    intros A m l F f g H s x r X. induction F as [|R l E F IH]; [destruct X|]. destruct X as [X|[N X]]; [left; now apply (E f g)|right].
    split; [|exact (IH X)]. now apply (neg _ (applies_E _ _ _ E) f g H).
  Qed.
  Lemma b_start : ER mstart item_start.
  Proof. apply b_first. repeat apply Forall_cons; try apply Forall_nil; [exact b_empty|exact b_tasked|exact b_texted]. Qed.
  Lemma b_other : forall k n, EP (other_item k n).
  Proof.
    intros k n f g H s (j & m & k' & r & -> & A & B & C). exists j, (map f m), k', (map f r). repeat apply conj; try assumption; [now norm H|now apply (b_marker f g) in B].
  Qed.
  Lemma b_item_line : forall k n, ER M (item_line k n).
  Proof.
    intros k n f g H s v r (A & B & C). split; [now apply (neg _ (applies_E _ _ _ b_break) f g H)|]. split; [now apply (neg _ (b_other k n) f g H)|].
    match type of C with first_of ?l _ _ _ => refine (b_first _ M l _ f g H _ _ _ C) end. clear. repeat apply Forall_cons; try apply Forall_nil.
    - intros f g H s v r (m & A & B). exists (map f m). split; [now apply (b_strip n f g)|now apply (b_text f g)].
    - intros f g H s v r (bl & m & v' & N & A & B & ->). exists (map (map f) bl), (map f m), (map f v'). repeat apply conj.
      + intro E. apply N. now destruct bl.
      + apply (b_repeated _ _ _ b_blank f g H) in A. revert A. now norm H.
      + now apply (b_text f g).
      + now rewrite map_app, concat_map.
  Qed.
  Definition mitem (f : char -> char) (x : list_kind * (option task_state * str)) : list_kind * (option task_state * str) := (fst x, (fst (snd x), map f (snd (snd x)))).
  Lemma b_item : ER mitem item_at.
  Proof.
    intros f g H s x r [s' k n t v m ls r' A B]. unfold mitem. cbn [fst snd]. rewrite (b_join f g H). cbn [map]. apply (Item _ k n t (map f v) (map f m)).
    - now apply (b_start f g) in A.
    - exact (b_repeated _ _ _ (b_item_line k n) f g H _ _ _ B).
  Qed.
  Lemma b_list : ER mshape r_list.
  Proof.
    intros f g H s x r [s' k y items r' A]. cbn [mshape]. apply (b_repeated _ _ _ b_item f g H) in A. cbn [map] in *. unfold mitem in A at 1. cbn [fst snd] in A.
    replace (map (fun x => (fst x, map f (snd x))) (map snd items)) with (map snd (map (mitem f) items)) by (rewrite !map_map; reflexivity). now constructor.
  Qed.
  (** *** HTML blocks *)
  Lemma e_lower : forall f g, ok f g -> forall s, map to_lower (map f s) = map f (map to_lower s).
  Proof.
    intros f g H s. rewrite !map_map. apply map_ext. intros c. destruct (N.lt_ge_cases c 128) as [X|X].
    - rewrite (lo f g H c X). symmetry. apply (lo f g H). unfold to_lower, is_upper. unfold char in *. destruct (_ && _)%bool eqn:E; lia.
    - pose proof (hi f g H c X) as Y. assert (U : forall d, (128 <= d)%N -> to_lower d = d). { intros d K. unfold to_lower, is_upper. unfold char in *. destruct (_ && _)%bool eqn:E; lia. }
      now rewrite (U _ X), (U _ Y).
  Qed.
  Lemma b_any : forall n, Forall (fun c => (c < 128)%N) n -> ER M (any_case n).
  Proof. intros n L f g H s t r [-> E]. split; [now rewrite map_app|]. rewrite (e_lower f g H), E. now apply (fix_lit f g H). Qed.
  Lemma low_names : forall f g, ok f g -> forall t l, Forall (Forall (fun c => (c < 128)%N)) l -> In (map to_lower t) l -> In (map to_lower (map f t)) l.
  Proof. intros f g H t l L I. rewrite (e_lower f g H). pose proof (proj1 (Forall_forall _ _) L _ I) as X. cbv beta in X. now rewrite (fix_lit f g H _ X). Qed.
  Lemma raw_lo : Forall (Forall (fun c => (c < 128)%N)) raw_names.
  Proof. unfold raw_names. cbn [map]. repeat apply Forall_cons; try apply Forall_nil; asc. Qed.
  Lemma block_lo : Forall (Forall (fun c => (c < 128)%N)) block_names.
  Proof. unfold block_names. cbn [map]. repeat apply Forall_cons; try apply Forall_nil; asc. Qed.
  Lemma e_literal : forall c, Forall (fun c => (c < 128)%N) c -> EP (fun x => exists y, x = c ++ y).
  Proof. intros c L f g H s (y & ->). exists (map f y). transitivity (map f c ++ map f y); [apply map_app|]. f_equal. exact (fix_lit f g H c L). Qed.
  Lemma b_closed : forall o c, Forall (fun c => (c < 128)%N) o -> Forall (fun c => (c < 128)%N) c -> ER M (closed o c).
  Proof.
    intros o c Lo Lc f g H s v r (body & -> & -> & U). exists (map f body). rewrite !map_app, (fix_lit f g H o Lo), (fix_lit f g H c Lc). conjs; [reflexivity|reflexivity|].
    apply (b_until _ (e_literal c Lc) f g H) in U. revert U. now rewrite map_app, (fix_lit f g H c Lc).
  Qed.
  Lemma b_raw_end : E2 raw_end.
  Proof. intros f g H s r (t & -> & I). exists (map f t). split; [now norm H|]. apply (low_names f g H); [exact raw_lo|exact I]. Qed.
  Lemma b_html1 : ER M html1.
  Proof.
    intros f g H s v r (t & x & body & e & -> & -> & I & X & E & U). exists (map f t), (map f x), (map f body), (map f e). conjs.
    - now norm H.
    - now norm H.
    - apply (low_names f g H); [exact raw_lo|exact I].
    - destruct X as [-> | [-> | X]]; [left; now norm H|right; left; now norm H|right; right; now apply (e_eol f g)].
    - rewrite <- map_app. now apply (b_raw_end f g).
    - rewrite <- map_app. apply (b_until (fun y => exists r', raw_end y r')) with (g := g); try assumption. intros f1 g1 K s0 (r0 & X0). exists (map f1 r0). now apply (b_raw_end f1 g1).
  Qed.
  Lemma b_html4 : ER M html4.
  Proof.
    intros f g H s v r (c & U & X). assert (L : (c < 128)%N) by (revert U; unfold is_upper; unfold char in *; lia). exists c. split; [exact U|].
    apply (b_closed (lit "<!" ++ [c]) (lit ">")) with (g := g); try assumption; [|asc]. apply Forall_app. split; [asc|]. apply Forall_cons; [exact L|constructor].
  Qed.
  Lemma e_par_end : EP paragraph_end.
  Proof. intros f g H s [-> | X]; [now left|right; now apply (e_blank_line f g)]. Qed.
  Lemma b_eof : forall f g, ok f g -> forall e r : str, is_eol e \/ e = [] /\ r = [] -> is_eol (map f e) \/ map f e = [] /\ map f r = [].
  Proof. intros f g H e r [X|[-> ->]]; [left; now apply (e_eol f g)|now right]. Qed.
  Lemma b_html6 : ER M html6.
  Proof.
    intros f g H s v r (o & t & x & body & e & m & -> & -> & O & -> & F & X & U & E).
    assert (EO : map f o = o) by (destruct O as [<-|[<-|[]]]; now norm H).
    exists o, (map f t), (map f x), (map f body), (map f e), (map f (x ++ body ++ e ++ r)). conjs.
    - now rewrite !map_app, EO.
    - now rewrite !map_app, EO.
    - exact O.
    - now rewrite !map_app.
    - rewrite <- map_app. refine (b_first _ M (map any_case block_names) _ f g H _ _ _ F).
      apply Forall_map. apply (Forall_impl _ b_any). exact block_lo.
    - destruct X as [-> | [-> | [-> | X]]]; [left; now norm H|right; left; now norm H|right; right; left; now norm H|right; right; right; now apply (e_eol f g)].
    - rewrite <- map_app. now apply (b_until _ e_par_end f g H).
    - now apply (b_eof f g).
  Qed.
  Lemma b_tag_name : ER M tag_name.
  Proof.
    intros f g H s n r (L & c & t & -> & A). split; [now apply (b_longest _ c_tag f g H)|]. exists (f c), (map f t). split; [reflexivity|now rewrite (c_alpha f g H)].
  Qed.
  Lemma b_attr_name : E2 attr_name.
  Proof.
    intros f g H s r (c & t & L & A). exists (f c), (map f t). split; [now apply (b_longest _ c_attr f g H) in L|]. destruct A as [A|A]; [left; now rewrite (c_alpha f g H)|right]. apply (in_class f g H); [asc|exact A].
  Qed.
  Lemma b_attr_value : E2 attr_value.
  Proof.
    intros f g H s r [(v & N & L)|(q & c & I & -> & D)].
    - left. exists (map f v). split; [now apply nil_map|now apply (b_longest _ c_value f g H) in L].
    - right. exists q, (f c). assert (L : (q < 128)%N) by (destruct I as [<-|[<-|[]]]; reflexivity). conjs; [exact I|cbn [map]; now rewrite (lo f g H q L)|]. intro K. apply D. exact (lo1 f g H _ _ K L).
  Qed.
  Lemma b_assigned : E2 attr_assigned.
  Proof.
    intros f g H s r (w & w' & m & -> & A & B & C). exists (map f w), (map f w'), (map f m). conjs; [now norm H|am H c_space|am H c_space|now apply (b_attr_value f g)].
  Qed.
  Lemma b_attribute : ER M attribute.
  Proof.
    intros f g H s v r (-> & w & m1 & m2 & E & N & A & B & C). split; [now rewrite map_app|]. exists (map f w), (map f m1), (map f m2). conjs.
    - now rewrite E, map_app.
    - now apply nil_map.
    - am H c_space.
    - now apply (b_attr_name f g).
    - destruct C as [C|[-> C]]; [left; now apply (b_assigned f g)|right; split; [reflexivity|]]. now apply (neg2 _ b_assigned f g H).
  Qed.
  Lemma b_open_tag : E2 open_tag.
  Proof.
    intros f g H s r (m & n & m1 & l & m2 & w & c & -> & T & N & A & -> & W & C).
    assert (EC : map f c = c) by (destruct C as [<-|[<-|[]]]; now norm H).
    exists (map f m), (map f n), (map f m1), (map (map f) l), (map f (w ++ c ++ ch ">" :: r)), (map f w), c. conjs.
    - now norm H.
    - now apply (b_tag_name f g) in T.
    - intro K. apply N. apply (low_names g f (ok_sym _ _ H)) in K; [|exact raw_lo]. now rewrite (back f g H) in K.
    - exact (b_repeated _ _ _ b_attribute f g H _ _ _ A).
    - rewrite !map_app, EC. now norm H.
    - am H c_space.
    - exact C.
  Qed.
  Lemma b_close_tag : E2 close_tag.
  Proof.
    intros f g H s r (m & n & w & -> & T & W). exists (map f m), (map f n), (map f w). conjs; [now norm H| |am H c_space]. apply (b_tag_name f g H) in T. revert T. now norm H.
  Qed.
  Lemma b_html7 : ER M html7.
  Proof.
    intros f g H s v r (t & x & body & e & -> & -> & T & X & U & E). exists (map f t), (map f x), (map f body), (map f e). rewrite !map_app in *. conjs.
    - reflexivity.
    - reflexivity.
    - destruct T as [T|T]; [left; apply (b_open_tag f g H) in T|right; apply (b_close_tag f g H) in T]; revert T; now rewrite !map_app.
    - destruct X as [-> | X]; [left; now norm H|right; now apply (e_eol f g)].
    - rewrite <- map_app. now apply (b_until _ e_par_end f g H).
    - destruct E as [(e1 & w & e2 & -> & A & B & C)|[-> ->]]; [left|right; now split].
      exists (map f e1), (map f w), (map f e2). conjs; [now rewrite !map_app|now apply (e_eol f g)|now apply (e_eol f g)|am H c_space].
  Qed.
  Lemma b_html : ER mshape r_html.
  Proof.
    intros f g H s x r [k m v r' K X]. cbn [mshape]. norm H. apply R_html; [exact K|]. unfold html_at in *. match type of X with first_of ?l _ _ _ => refine (b_first _ M l _ f g H _ _ _ X) end.
    repeat apply Forall_cons; try apply Forall_nil; [exact b_html1|apply b_closed; asc|apply b_closed; asc|exact b_html4|apply b_closed; asc|exact b_html6|exact b_html7].
  Qed.
  (** *** Definitions and tables *)
  Lemma b_footnote_line : ER M footnote_line.
  Proof. intros f g H s v r (m & -> & A). exists (map f m). split; [now norm H|now apply (b_text f g)]. Qed.
  Lemma b_footnote : ER mshape r_footnote_def.
  Proof.
    intros f g H s x r [k label m m1 v m2 ls r' K N A B C D]. cbn [mshape]. rewrite (b_join f g H). cbn [map]. norm H.
    apply (R_footnote_def k _ _ (map f m1) _ (map f m2)); try assumption.
    - now apply nil_map.
    - now apply (not_in_lo f g).
    - now apply (b_strip 3 f g).
    - now apply (b_text f g).
    - exact (b_repeated _ _ _ b_footnote_line f g H _ _ _ D).
  Qed.
  Lemma e_gap : EP one_gap.
  Proof.
    intros f g H s (a & e & b & -> & A & B & E). exists (map f a), (map f e), (map f b). conjs; [now rewrite !map_app|am H c_space|am H c_space|]. destruct E as [-> | E]; [now left|right; now apply (e_eol f g)].
  Qed.
  Lemma b_def_title : ER M definition_title.
  Proof. intros f g H s t r (w & m & -> & N & A & B). exists (map f w), (map f m). conjs; [now rewrite map_app|now apply nil_map|now apply (e_gap f g)|now apply (e_title_at f g)]. Qed.
  Lemma b_definition : ER mshape r_definition.
  Proof.
    intros f g H s x r [k s' label w m d m1 t m2 r' K A B C D E]. cbn [mshape]. norm H.
    apply (R_definition k _ _ (map f w) (map f m) _ (map f m1) _ (map f m2)); try assumption.
    - apply (e_bracket f g H) in A. revert A. now norm H.
    - now apply (e_gap f g).
    - now apply (e_dest f g).
    - destruct D as [(y & -> & D)|(-> & -> & D)]; [left; exists (map f y); split; [reflexivity|now apply (b_def_title f g)]|right]. conjs; [reflexivity|reflexivity|now apply (neg _ (applies_E _ _ _ b_def_title) f g H)].
    - now apply (b_end f g).
  Qed.
  Lemma b_cells : forall A m (cell : rule A), ER m cell -> ER (fun f => map (m f)) (cells cell).
  Proof.
    intros A m cell E f g H s l r X. induction X as [s x k k' r C D L|s x k l r C X IH]; cbn [map].
    - apply (cells_last _ _ _ (map f k) (map f k')); [now apply (E f g)| |now apply (b_end f g)]. destruct D as [-> | ->]; [now left|right; now norm H].
    - apply (cells_more _ _ _ (map f k)); [|exact IH]. apply (E f g H) in C. revert C. now norm H.
  Qed.
  Lemma b_row : forall A m (cell : rule A), ER m cell -> ER (fun f => map (m f)) (row cell).
  Proof.
    intros A m cell E f g H s l r (k & t & -> & K & C). exists k, (map f t). conjs; [now norm H|exact K|exact (b_cells A m cell E f g H _ _ _ C)].
  Qed.
  Lemma b_cell_text : ER M cell_text.
  Proof.
    intros f g H s t r X. induction X as [s E|s t r X IH|c s t r N L D X IH].
    - apply cell_stop. destruct E as [E|(r & E)]; [left; now apply (starts f g H)|right; exists (map f r); now apply (b_end f g)].
    - norm H. now constructor.
    - cbn [map]. apply cell_char; [intro K; apply N; exact (lo1 f g H _ _ K eq_refl)| | |exact IH].
      + exact (neg2 _ b_end f g H (c :: s) L).
      + intros [K1 K2]. apply D. split; [exact (lo1 f g H _ _ K1 eq_refl)|exact (proj1 (starts f g H (ch "|") s eq_refl) K2)].
  Qed.
  Lemma b_cell : ER M cell_at.
  Proof. intros f g H s t r [N X]. split; [now apply nil_map|now apply (b_cell_text f g)]. Qed.
  Lemma b_align : ER (fun _ a => a) align_at.
  Proof.
    intros f g H s a r (w & n & w' & N & A & B & C). exists (map f w), n, (map f w'). conjs; [exact N|am H c_space|am H c_space|].
    destruct C as [[-> ->]|[[-> ->]|[[-> ->]|[-> ->]]]]; [left|right; left|right; right; left|right; right; right]; (split; [reflexivity|now norm H]).
  Qed.
  Lemma b_table : ER mshape r_table.
  Proof.
    intros f g H s x r [s' header m1 al m2 rows r' A B C D]. cbn [mshape]. apply (R_table _ _ (map f m1) _ (map f m2)).
    - exact (b_row _ _ _ b_cell f g H _ _ _ A).
    - pose proof (b_row _ _ _ b_align f g H _ _ _ B) as X. cbv beta in X. now rewrite map_id in X.
    - now rewrite map_length.
    - exact (b_repeated _ _ _ (b_row _ _ _ b_cell) f g H _ _ _ D).
  Qed.
  Lemma b_cust : ER mshape (r_custom_block cfg).
  Proof. intros f g H s x r [p s' l r' E X]. destruct Hu as (_ & _ & _ & K). congruence. Qed.
  Lemma e_starter : EP (starter cfg).
  Proof.
    intros f g H s X. unfold starter in *. rewrite !Exists_cons in *. rewrite Exists_nil in *.
    repeat match type of X with
    | _ \/ _ => destruct X as [X|X]; [left|right]
    | False => destruct X
    end; revert X.
    - apply (applies_E _ _ _ (r_on _ _ _ _ _ (b_atx _)) f g H).
    - apply (applies_E _ _ _ (r_on _ _ _ _ _ b_underline) f g H).
    - apply (applies_E _ _ _ (r_on _ _ _ _ _ b_break) f g H).
    - apply (applies_E _ _ _ (r_on _ _ _ _ _ b_quote) f g H).
    - apply (applies_E _ _ _ (r_on _ _ _ _ _ b_item) f g H).
    - apply (applies_E _ _ _ (r_on _ _ _ _ _ b_fenced) f g H).
    - apply (applies_E _ _ _ (r_on _ _ _ _ _ b_html) f g H).
    - apply (applies_E _ _ _ (r_on _ _ _ _ _ b_definition) f g H).
    - apply (applies_E _ _ _ (r_on _ _ _ _ _ b_footnote) f g H).
    - apply (applies_E _ _ _ (r_on _ _ _ _ _ b_table) f g H).
    - apply (applies_E _ _ _ b_cust f g H).
    - apply (applies_E _ _ _ b_blank f g H).
  Qed.
  Lemma b_par_line : ER M (paragraph_line cfg).
  Proof. intros f g H s v r (N & m & A & B). split; [now apply (neg _ e_starter f g H)|]. exists (map f m). split; [now apply (b_strip 3 f g)|now apply (b_text f g)]. Qed.
  Lemma b_lines : ER mshape (r_lines cfg).
  Proof.
    intros f g H s x r X. destruct X as [s ls m l r N A B|s ls r N A B]; cbn [mshape]; rewrite (b_join f g H).
    - apply (R_setext _ _ _ (map f m)); [intro E; apply N; now destruct ls|exact (b_repeated _ _ _ b_par_line f g H _ _ _ A)|exact (b_underline f g H _ _ _ B)].
    - apply R_paragraph; [intro E; apply N; now destruct ls|exact (b_repeated _ _ _ b_par_line f g H _ _ _ A)|now apply (neg _ (applies_E _ _ _ b_underline) f g H)].
  Qed.
  Lemma b_line : ER mshape r_line.
  Proof. intros f g H s x r [s' m v r' A B]. cbn [mshape]. apply (R_line _ (map f m)); [now apply (b_strip 3 f g)|now apply (b_text f g)]. Qed.
  Lemma b_rules : Forall (ER mshape) (block_rules cfg).
  Proof.
    unfold block_rules. repeat apply Forall_cons; try apply Forall_nil; try apply r_on; [exact b_code|apply b_atx|exact b_lines|exact b_break|exact b_alert|exact b_quote|exact b_list|exact b_html|exact b_footnote|exact b_definition|exact b_table|exact b_cust|exact b_line].
  Qed.

  (** ** The documents *)
  Lemma e_outcome_i : forall p f i, map (spell_inline f) (outcome IEmpty (behavior_of cfg p) i) = outcome IEmpty (behavior_of cfg p) (spell_inline f i).
  Proof. intros p f i. pose proof (plain_i cfg Hu p) as P. now destruct (behavior_of cfg p). Qed.
  Lemma e_outcome_b : forall p f i, map (spell_block f) (outcome BEmpty (block_behavior cfg p) i) = outcome BEmpty (block_behavior cfg p) (spell_block f i).
  Proof. intros p f i. pose proof (plain_b cfg Hu p) as P. now destruct (block_behavior cfg p). Qed.
  Lemma e_behavior_i : forall f p, behavior_of cfg (mpiece f p) = behavior_of cfg p.
  Proof. now intros f []. Qed.
  Lemma e_behavior_b : forall f h, block_behavior cfg (mshape f h) = block_behavior cfg h.
  Proof. now intros f []. Qed.
  Lemma e_joins : forall f l l', joins_to l l' -> joins_to (map (spell_inline f) l) (map (spell_inline f) l').
  Proof.
    intros f l l' J. induction J as [|l m n [a s t b] J IH]; [constructor|]. apply (joins_step _ (map (spell_inline f) (a ++ IText (s ++ t) :: b))); [|exact IH].
    rewrite !map_app. cbn [map spell_inline]. rewrite map_app. constructor.
  Qed.
  Lemma e_merged : forall f l, merged l -> merged (map (spell_inline f) l).
  Proof.
    intros f l N a s t b E. apply map_eq_app in E as (a' & m & -> & _ & E). destruct m as [|x [|y m]]; try discriminate E. injection E as Ex Ey _.
    destruct x; try discriminate Ex. destruct y; try discriminate Ey. now apply (N a' s0 s1 m).
  Qed.
  Notation AQ := (fun c : char => c <> ch "&").
  Lemma inline_spelled : forall f g, ok f g ->
    (forall p i, builds cfg p i -> piece_texts AQ p -> builds cfg (mpiece f p) (spell_inline f i)) /\
    (forall p o, yields cfg p o -> (forall l, p <> PCustom l) -> piece_texts AQ p -> yields cfg (mpiece f p) (map (spell_inline f) o)) /\
    (forall s l, pieces cfg s l -> amp s -> pieces cfg (map f s) (map (spell_inline f) l)) /\
    (forall s l, reads cfg s l -> amp s -> reads cfg (map f s) (map (spell_inline f) l)).
  Proof.
    intros f g H. apply inline_mut; cbn [piece_texts mpiece option_map spell_inline link_destination link_title link_children lr_label lr_text image_destination image_title image_alt].
    - constructor.
    - intros text d t c _ IH T. constructor. now apply IH.
    - constructor.
    - intros text label a b _ IA _ IB [T L]. constructor; auto.
    - intros text a _ IA [T _]. constructor. auto.
    - constructor.
    - constructor.
    - constructor.
    - constructor.
    - intros text c _ IH T. constructor. auto.
    - intros text c _ IH T. constructor. auto.
    - intros text c _ IH T. cbn [map spell_inline]. constructor. auto.
    - intros text c _ IH T. constructor. auto.
    - constructor.
    - intros p i _ IH _ T. rewrite e_outcome_i, <- (e_behavior_i f). constructor. now apply IH.
    - intros l N. now elim (N l).
    - intros _. constructor.
    - intros s p r o l F _ Hy _ IH A. pose proof (q_piece AQ cfg (no_user_ok cfg Hu) _ _ _ F A) as [T T']. rewrite map_app.
      apply (P_more _ _ (mpiece f p) (map f r)).
      + exact (e_first _ _ _ r_inline f g H _ _ _ A F).
      + apply Hy; [|exact T]. intros x ->. apply first_in in F as (R & J & F). unfold inline_rules, element_rules in J. cbn [app In] in J.
        repeat (destruct J as [<-|J]; [unfold on in F; try destruct F as [_ F]; inversion F; subst|]); try contradiction.
        destruct Hu as (_ & _ & E & _). congruence.
      + now apply IH.
    - intros s l l' _ IH J N A. apply (Reads _ _ (map (spell_inline f) l)); [now apply IH|now apply e_joins|now apply e_merged].
  Qed.
  Lemma reads_spelled : forall f g, ok f g -> forall s l, reads cfg s l -> amp s -> reads cfg (map f s) (map (spell_inline f) l).
  Proof. intros f g H. apply (inline_spelled f g H). Qed.
  Lemma row_spelled : forall f g, ok f g -> forall n l c, row_cells cfg n l c -> Forall amp l -> row_cells cfg n (map (map f) l) (map (map (spell_inline f)) c).
  Proof.
    intros f g H n l c X. induction X as [l|n c X IH|n t u i l c T R X IH]; intro A; cbn [map spell_inline].
    - constructor.
    - constructor. now apply IH.
    - apply Forall_cons_iff in A as [A1 A2]. apply (row_next _ _ _ (map f u)); [now apply (b_trimmed f g)| |now apply IH]. apply (reads_spelled f g H); [exact R|]. now apply (q_trimmed AQ) in T.
  Qed.
  Lemma block_spelled : forall f g, ok f g ->
    (forall h b, makes cfg h b -> shape_texts AQ h -> makes cfg (mshape f h) (spell_block f b)) /\
    (forall items l, item_blocks cfg items l -> Forall (fun x => amp (snd x)) items ->
      item_blocks cfg (map (fun x => (fst x, map f (snd x))) items) (map (fun it => ListItem (li_task it) (map (spell_block f) (li_blocks it))) l)) /\
    (forall h o, makes_all cfg h o -> (forall l, h <> HCustom l) -> shape_texts AQ h -> makes_all cfg (mshape f h) (map (spell_block f) o)) /\
    (forall s l, blocks cfg s l -> amp s -> blocks cfg (map f s) (map (spell_block f) l)).
  Proof.
    intros f g H. apply block_mut; cbn [shape_texts mshape].
    - constructor.
    - intros k t l R T. constructor. now apply (reads_spelled f g).
    - intros t l R T. constructor. now apply (reads_spelled f g).
    - constructor.
    - intros ty t bs _ IH T. constructor. now apply IH.
    - intros t bs _ IH T. constructor. now apply IH.
    - intros k items l _ IH T. constructor. now apply IH.
    - constructor.
    - intros label t bs _ IH T. constructor. now apply IH.
    - intros label d t l R T. constructor. now apply (reads_spelled f g).
    - intros header rows al h l R F [T1 T2]. constructor.
      + rewrite map_length. now apply (row_spelled f g).
      + rewrite map_length. cbn [map t_rows]. revert T2. induction F as [|x y rows l X F IH]; intro T2; cbn [map]; constructor; apply Forall_cons_iff in T2 as [T2 T3]; [now apply (row_spelled f g)|now apply IH].
    - intros t l R T. constructor. now apply (reads_spelled f g).
    - constructor.
    - intros t text bs items l _ IB _ IH A. apply Forall_cons_iff in A as [A1 A2]. cbn [map fst snd li_task li_blocks]. constructor; [now apply IB|now apply IH].
    - intros h b _ IH _ T. rewrite e_outcome_b, <- (e_behavior_b f). constructor. now apply IH.
    - intros l N. now elim (N l).
    - intros s B A. cbn [map]. constructor. now apply (e_blank f g).
    - intros s bl m h r o l B F _ Hm _ IH A. pose proof (q_blanks AQ _ _ _ B A) as Am.
      pose proof (q_shape AQ ltac:(discriminate) cfg (no_user_ok cfg Hu) _ _ _ F Am) as (T & _ & Ar). rewrite map_app.
      apply (Blocks_more _ _ (map (map f) bl) (map f m) (mshape f h) (map f r)).
      + exact (b_repeated _ _ _ b_blank f g H _ _ _ B).
      + exact (b_first _ _ _ b_rules f g H _ _ _ F).
      + apply Hm; [|exact T]. intros x ->. apply first_in in F as (R & J & F). unfold block_rules in J. cbn [app In] in J.
        repeat (destruct J as [<-|J]; [unfold on in F; try match type of F with _ /\ _ => destruct F as [_ F] end; inversion F; subst|]); try contradiction.
        all: try match goal with X : r_fenced _ (HCustom _) _ |- _ => inversion X end.
        destruct Hu as (_ & _ & _ & E). congruence.
      + now apply IH.
  Qed.
End Alpha.
