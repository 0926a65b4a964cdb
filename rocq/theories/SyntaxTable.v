(** Exactness of tables. *)
From Coq Require Import String Lia.
From Verif Require Import SpecParser Nom NomFacts ParserLeaf ParserTotal ParserCode SpecInline SyntaxFacts SyntaxInline SyntaxInline2 ParserBlock ParserBlockFacts ManyFacts SpecBlock SyntaxLines SyntaxBlock SyntaxBlock2 SyntaxHtml SyntaxDef.
Import ListNotations.
Open Scope list_scope.
Local Notation len := (@List.length _).

(** ** Separated lists *)
Lemma sep_go_many : forall A B n (sep : parser B) (p : parser A) s, sep_go n sep p s = many0_go n (preceded sep p) s.
Proof.
  induction n as [|n IH]; intros sep p s; [reflexivity|]. cbn [sep_go many0_go]. unfold preceded, bind. destruct (sep s) as [r1 b| |]; try reflexivity. destruct (p r1) as [r2 a| |]; try reflexivity.
  destruct (len r2 =? len s); [reflexivity|]. now rewrite IH.
Qed.
Lemma exact_sep1 : forall A B (sep : parser B) (p : parser A) Rs R, exact sep Rs -> exact p R -> eats false sep -> eats false p ->
  exact (separated_list1 sep p) (fun s l r => exists a m l', R s a m /\ many_of (fun s a r => exists x m, Rs s x m /\ R m a r) m l' r /\ l = a :: l').
Proof.
  intros A B sep p Rs R Hs Hp Es Ep. eapply exact_iff.
  - unfold separated_list1. eapply exact_bind; [exact Hp|]. intro a. eapply exact_pmap. 
    assert (X : exact (many0 (preceded sep p)) (many_of (fun s a r => exists x m, Rs s x m /\ R m a r))) by (apply exact_many0; [now apply exact_preceded|eats]).
    split.
    + intro s. rewrite sep_go_many. apply X.
    + intros s r l. rewrite sep_go_many. apply X.
  - intros s l r. cbv beta. split; [intros (a & m & H & l' & M & ->)|intros (a & m & l' & H & M & ->)]; eauto 7.
Qed.

Lemma F2_length : forall A B (F : A -> B -> Prop) l l', Forall2 F l l' -> len l = len l'.
Proof. induction 1; cbn; congruence. Qed.

(** ** Rows *)
Lemma line_end_not : forall c s r, c <> 10%N -> c <> 13%N -> ~ line_end (c :: s) r.
Proof. intros c s r A1 A2 H. apply line_end_first in H. tauto. Qed.
Lemma exact_row : forall A (p : parser A) R, exact p R -> eats true p -> (forall s r, line_end s r -> ~ applies R s) ->
  exact (line_terminated (preceded up_to_3_spaces (delimited (chr "|") (separated_list1 (chr "|") p) (opt (chr "|"))))) (row R).
Proof.
  intros A p R H E Ne.
  assert (LT : forall s a r, R s a r -> len r < len s) by (intros s a r X; apply (exact_ok _ _ H) in X; now apply eats_lt in X).
  eapply exact_iff.
  - eapply exact_lt, exact_up3.
    + eapply exact_delimited; [ex|apply exact_sep1; [ex|exact H|eats|now apply eats_weaken in E]|ex].
    + intros t a r (x & m & m' & b & (-> & Q) & _). discriminate.
  - intros s l r. cbv beta. unfold row. split.
    + intros (m & (k & s' & -> & Lk & u & m1 & m2 & o & (-> & ->) & (a & m3 & l' & Ha & M & ->) & Ho) & L). exists k, m1. split; [reflexivity|]. split; [exact Lk|]. clear k Lk.
      revert m1 a Ha. induction M as [s N|s b m4 l r' (u & m5 & (-> & ->) & X) Lt M IH]; intros m1 a Ha.
      * eapply cells_last; [exact Ha| |exact L]. destruct o as [o|]; [destruct Ho as [-> ->]; auto|destruct Ho as [-> _]; auto].
      * eapply cells_more; [exact Ha|]. now apply IH.
    + intros (k & m & -> & Lk & C). 
      assert (X : exists a m3 l' m2 o m4, R m a m3 /\ many_of (fun s a r => exists x m, (x = ch "|" /\ s = ch "|" :: m) /\ R m a r) m3 l' m2 /\ l = a :: l' /\ 
         match o with Some x => x = ch "|" /\ m2 = ch "|" :: m4 | None => m2 = m4 /\ ~ (exists a r', a = ch "|" /\ m2 = ch "|" :: r') end /\ line_end m4 r).
      { induction C as [s x m m' r Hx Hm L|s x m l r Hx C IH].
        - exists x, m, [], m, (if N.eqb (hd 0%N m) (ch "|") then Some (ch "|") else None), m'. split; [exact Hx|].
          assert (NA : ~ exists a r', exists (x : char) m0, (x = ch "|" /\ m = ch "|" :: m0) /\ R m0 a r').
          { intros (a & r' & y & m0 & (-> & ->) & Y). destruct Hm as [<-|Hm]; [now apply line_end_not in L|]. injection Hm as <-. eapply Ne; [exact L|]. exists a, r'. exact Y. }
          split; [apply many_stop, NA|]. split; [reflexivity|]. split; [|exact L]. destruct Hm as [->| ->]; [|cbn; auto]. destruct L as [e q [->| ->]|]; cbn; (split; [reflexivity|]); intros (? & ? & _ & Q); discriminate.
        - destruct IH as (a & m3 & l' & m2 & o & m4 & Ha & M & -> & Ho & L). exists x, (ch "|" :: m), (a :: l'), m2, o, m4. split; [exact Hx|]. split; [|auto].
          refine (many_step _ _ a _ _ _ _ _ M); [eauto|]. apply LT in Ha. lenlia. }
      destruct X as (a & m3 & l' & m2 & o & m4 & Ha & M & -> & Ho & L). exists m4. split; [|exact L]. exists k, (ch "|" :: m). split; [reflexivity|]. split; [exact Lk|].
      exists (ch "|"), m, m2, o. split; [auto|]. split; [|exact Ho]. eauto 8.
Qed.
Lemma cells_map : forall A B (R : rule A) (F : A -> B -> Prop) s l r,
  cells (fun s b r => exists a, R s a r /\ F a b) s l r <-> exists l', cells R s l' r /\ Forall2 F l' l.
Proof.
  intros A B R F s l r. split.
  - induction 1 as [s x m m' r (a & Ha & Fa) Hm L|s x m l r (a & Ha & Fa) C (l' & C' & F')]; [exists [a]|exists (a :: l')]; (split; [|repeat constructor; auto]); [eapply cells_last; eauto|eapply cells_more; eauto].
  - intros (l' & C & H). revert l H. induction C as [s x m m' r Hx Hm L|s x m l' r Hx C IH]; intros l H; inversion H as [|? b ? l2 Fa F']; subst.
    + inversion F'; subst. eapply cells_last; [exists x; eauto|exact Hm|exact L].
    + eapply cells_more; [exists x; eauto|now apply IH].
Qed.
Lemma cells_ext : forall A (R Q : rule A), (forall s a r, begins_with (ch "|") r \/ (exists r', line_end r r') -> (R s a r <-> Q s a r)) ->
  forall s l r, cells R s l r <-> cells Q s l r.
Proof.
  assert (K : forall A (R Q : rule A), (forall s a r, begins_with (ch "|") r \/ (exists r', line_end r r') -> R s a r -> Q s a r) -> forall s l r, cells R s l r -> cells Q s l r).
  { intros A R Q H s l r C. induction C as [s x m m' r Hx Hm L|s x m l r Hx C IH].
    - eapply cells_last; [apply H; [|exact Hx]|exact Hm|exact L]. destruct Hm as [->| ->]; [right; eauto|left; now exists m'].
    - eapply cells_more; [apply H; [|exact Hx]|exact IH]. left. now exists m. }
  intros A R Q H s l r. split; apply K; intros ? ? ? B; now apply H.
Qed.

(** ** Cells *)
Definition cell_unit : rule char := fun s c r => ~ (begins_with (ch "|") s \/ exists r, line_end s r) /\
  (c = ch "|" /\ s = lit "\|" ++ r \/ s = c :: r /\ ~ (c = ch "\" /\ begins_with (ch "|") r)).
Lemma cell_units : forall s t r, many_of cell_unit s t r <-> cell_text s t r.
Proof.
  intros s t r. split.
  - induction 1 as [s N|s c m l r [Nb U] Lt M IH].
    + destruct s as [|c s]; [apply cell_stop; right; exists []; constructor|]. 
      assert (D : (begins_with (ch "|") (c :: s) \/ exists r, line_end (c :: s) r) \/ ~ (begins_with (ch "|") (c :: s) \/ exists r, line_end (c :: s) r)).
      { destruct (N.eq_dec c (ch "|")) as [->|Nc]; [left; left; now exists s|]. destruct (exact_dec _ _ exact_eof_or_eol (c :: s)) as [(a & r & _ & L)|X]; [left; right; eauto|].
        right. intros [B|[r L]]; [apply begins_cons in B; auto|]. apply X. apply line_end_iff in L as K. destruct K as [(e & _ & Q)|[Q _]]; [exists e, r; auto|discriminate]. }
      destruct D as [D|D]; [now apply cell_stop|]. elim N.
      destruct (N.eq_dec c (ch "\")) as [->|Nc]; [|exists c, s; split; [exact D|right; split; [reflexivity|tauto]]].
      destruct s as [|d s]; [exists (ch "\"), []; split; [exact D|right; split; [reflexivity|]]; intros [_ [t Q]]; discriminate|].
      destruct (N.eq_dec d (ch "|")) as [->|Nd]; [exists (ch "|"), s; split; [exact D|left; auto]|]. exists (ch "\"), (d :: s). split; [exact D|right]. split; [reflexivity|]. intros [_ Q]. apply begins_cons in Q. auto.
    + destruct U as [[-> ->]|[-> U]]; [apply cell_bar, IH|]. apply cell_char; [|intros r' L; apply Nb; eauto|exact U|exact IH]. intros ->. apply Nb. left. now exists m.
  - induction 1 as [s H|s t r H IH|c s t r Nc Nl Ne H IH].
    + apply many_stop. intros (a & r & Nb & _). tauto.
    + refine (many_step _ _ (ch "|") _ _ _ _ _ IH); [|lenlia]. split; [|left; auto]. intros [B|[q L]]; [apply begins_cons in B; discriminate|now apply line_end_not in L].
    + refine (many_step _ _ c _ _ _ _ _ IH); [|lenlia]. split; [|right; auto]. intros [B|[q L]]; [apply begins_cons in B; auto|now apply Nl in L].
Qed.
Lemma exact_cell : exact p_cell_chars cell_at.
Proof.
  unfold p_cell_chars. eapply exact_iff.
  - eapply exact_many1; [|eats]. eapply exact_iff with (R' := cell_unit).
    + eapply exact_preceded; [eapply exact_not, exact_or; [eapply exact_unit, exact_eof_or_eol|ex]|ex].
    + intros s c r. cbv beta. unfold cell_unit. split.
      * intros (_ & m & (<- & N) & H). split.
        -- intros [[t ->]|[r' L]]; apply N.
           ++ exists tt, t. right. split; [|eauto]. intros (a & r' & v & _ & L). now apply line_end_not in L.
           ++ exists tt, r'. left. apply line_end_iff in L as K. destruct K as [(e & _ & ->)|[-> ->]]; [exists e|exists []]; auto.
        -- destruct H as [(-> & t & -> & ->)|(N' & ->)]; [left; auto|right]. split; [reflexivity|]. intros [-> [t ->]]. apply N'. eexists _, _. split; [reflexivity|]. exists (lit "\|"). split; [reflexivity|reflexivity].
      * intros (N & H). exists tt, s. split; [split; [reflexivity|]|].
        -- intros (a & r' & [(v & _ & L)|(_ & x & -> & ->)]); apply N; [right; eauto|left; now exists r'].
        -- destruct H as [(-> & ->)|(-> & H)]; [left; eauto|right]. split; [|reflexivity]. intros (a & r' & _ & t & -> & Q). injection Q as -> ->. apply H. split; [reflexivity|now exists r'].
  - intros s t r. cbv beta. unfold cell_at. now rewrite cell_units.
Qed.
Lemma cell_line_end : forall s r, line_end s r -> ~ applies cell_at s.
Proof. intros s r L (t & r' & N & H). destruct H as [s H|s t r' H|c s t r' Nc Nl Ne H]; [now elim N|now apply line_end_not in L|now apply Nl in L]. Qed.
Lemma eats_cell : eats true p_cell_chars. Proof. unfold p_cell_chars. eats. Qed.

(** ** Alignments *)
Definition colon (b : bool) : str := if b then lit ":" else [].
Definition align_of (a b : bool) : alignment := match a, b with true, true => ACenter | true, false => ALeft | false, true => ARight | false, false => ANone end.
Definition align_core (s v r : str) : Prop := exists a n b, v = colon a ++ rep n (ch "-") ++ colon b /\ 1 <= n /\ s = v ++ r /\ (b = false -> ~ begins_with (ch "-") r /\ ~ begins_with (ch ":") r).
Lemma exact_dashes : exact (many1 (chr "-")) (fun s l r => exists n, 1 <= n /\ l = rep n (ch "-") /\ s = l ++ r /\ ~ begins_with (ch "-") r).
Proof.
  eapply exact_iff; [ex|]. intros s l r. cbv beta. split.
  - intros (N & H). apply SyntaxInline.many_run in H as (n & -> & -> & B). exists n. split; [destruct n; [now elim N|lia]|auto].
  - intros (n & L & -> & -> & B). split; [destruct n; [lia|discriminate]|]. apply SyntaxInline.many_run. eauto.
Qed.
Lemma dashes_fun : forall n n' m m', rep n (ch "-") ++ m = rep n' (ch "-") ++ m' -> ~ begins_with (ch "-") m -> ~ begins_with (ch "-") m' -> n = n' /\ m = m'.
Proof. intros. eapply rep_inj; eassumption. Qed.
Lemma exact_core : exact (alt [recognize (delimited (chr ":") (many1 (chr "-")) (chr ":"));
          recognize (preceded (chr ":") (many1 (chr "-")));
          recognize (terminated (many1 (chr "-")) (chr ":"));
          recognize (many1 (chr "-"))]) align_core.
Proof.
  assert (ND : forall r, ~ begins_with (ch "-") (ch ":" :: r)) by (intros r B; apply begins_cons in B; discriminate).
  cbn [alt]. eapply exact_iff.
  - eapply exact_or; [|eapply exact_or; [|eapply exact_or]]; (eapply exact_recognize; [|eats]).
    + eapply exact_delimited; [ex|apply exact_dashes|ex].
    + eapply exact_preceded; [ex|apply exact_dashes].
    + eapply exact_terminated; [apply exact_dashes|ex].
    + apply exact_dashes.
  - intros s v r. cbv beta. unfold align_core. split.
    + intros [(-> & l & u & m & m' & x & (-> & E) & (n & L & -> & -> & _) & (-> & ->))|(N1 & [(-> & l & u & m & (-> & E) & (n & L & -> & -> & B))|(N2 & [(-> & l & m & x & (n & L & -> & E & B) & (-> & ->))|(N3 & (-> & l & n & L & -> & E & B))])])].
      * exists true, n, true. cbn [colon]. split; [|split; [exact L|split; [reflexivity|discriminate]]]. apply (app_inv_tail r). rewrite E. cbn. now rewrite <- app_assoc.
      * exists true, n, false. cbn [colon]. rewrite app_nil_r. split; [apply (app_inv_tail r); now rewrite E|]. split; [exact L|]. split; [reflexivity|]. intros _. split; [exact B|]. intros [t ->].
        apply N1. eexists (ch ":" :: rep n (ch "-") ++ lit ":"), t. split; [rewrite E; cbn; now rewrite <- app_assoc|]. exists (rep n (ch "-")), (ch ":"), (rep n (ch "-") ++ ch ":" :: t), (ch ":" :: t), (ch ":"). split; [auto|]. split; [|auto]. exists n. auto.
      * exists false, n, true. cbn [colon]. split; [|split; [exact L|split; [reflexivity|discriminate]]]. apply (app_inv_tail r). rewrite E. cbn. now rewrite <- app_assoc.
      * exists false, n, false. cbn [colon]. rewrite app_nil_r. apply app_inv_tail in E as ->. split; [reflexivity|]. split; [exact L|]. split; [reflexivity|]. intros _. split; [exact B|]. intros [t ->].
        apply N3. eexists (rep n (ch "-") ++ lit ":"), t. split; [now rewrite <- app_assoc|]. exists (rep n (ch "-")), (ch ":" :: t), (ch ":"). split; [|auto]. exists n. auto.
    + intros (a & n & b & -> & L & -> & B).
      assert (D : forall c t, rep n (ch "-") ++ c = ch ":" :: t -> False) by (intros c t Q; destruct n; [lia|discriminate]).
      destruct a, b; cbn [colon].
      * left. split; [reflexivity|]. exists (rep n (ch "-")), (ch ":"), (rep n (ch "-") ++ ch ":" :: r), (ch ":" :: r), (ch ":"). split; [split; [reflexivity|cbn; now rewrite <- app_assoc]|]. split; [|auto]. exists n. auto.
      * destruct (B eq_refl) as [B1 B2]. rewrite app_nil_r. right. split.
        -- intros (v & r' & E & l & u & m & m' & x & (-> & Q) & (n' & L' & -> & -> & B') & (-> & ->)). injection Q as Q. rewrite <- ?app_assoc in Q. apply dashes_fun in Q as [_ ->]; auto. apply B2. now exists r'.
        -- left. split; [reflexivity|]. exists (rep n (ch "-")), (ch ":"), (rep n (ch "-") ++ r). split; [auto|]. exists n. auto.
      * right. split; [|right; split; [|left]].
        -- intros (v & r' & E & l & u & m & m' & x & (-> & Q) & _). rewrite <- ?app_assoc in Q. eapply D, Q.
        -- intros (v & r' & E & l & u & m & (-> & Q) & _). rewrite <- ?app_assoc in Q. eapply D, Q.
        -- split; [reflexivity|]. exists (rep n (ch "-")), (ch ":" :: r), (ch ":"). split; [|auto]. exists n. split; [exact L|]. split; [reflexivity|]. split; [cbn; now rewrite <- app_assoc|auto].
      * destruct (B eq_refl) as [B1 B2]. rewrite app_nil_r. cbn [app]. right. split; [|right; split; [|right; split]].
        -- intros (v & r' & E & l & u & m & m' & x & (-> & Q) & _). rewrite <- ?app_assoc in Q. eapply D, Q.
        -- intros (v & r' & E & l & u & m & (-> & Q) & _). rewrite <- ?app_assoc in Q. eapply D, Q.
        -- intros (v & r' & E & l & m & x & (n' & L' & -> & Q & B') & (-> & ->)). apply dashes_fun in Q as [_ ->]; auto. apply B2. now exists r'.
        -- split; [reflexivity|]. exists (rep n (ch "-")), n. auto.
Qed.
Lemma align_value : forall a n b, 1 <= n -> cell_alignment (colon a ++ rep n (ch "-") ++ colon b) = align_of a b.
Proof.
  intros a n b L. unfold cell_alignment.
  assert (T : trim (colon a ++ rep n (ch "-") ++ colon b) = colon a ++ rep n (ch "-") ++ colon b).
  { symmetry. apply trimmed_eq. exists [], []. rewrite app_nil_r. split; [reflexivity|]. split; [constructor|]. split; [constructor|]. split.
    - intros c [t Q]. destruct a; [injection Q as <- _; reflexivity|]. destruct n; [lia|]. injection Q as <- _. reflexivity.
    - intros v c Q. destruct b; cbn [colon] in Q.
      + rewrite app_assoc in Q. apply app_inj_tail in Q as [_ <-]. reflexivity.
      + rewrite app_nil_r in Q. destruct n as [|n]; [lia|]. replace (rep (S n) (ch "-")) with (rep n (ch "-") ++ rep 1 (ch "-")) in Q by (rewrite rep_app; f_equal; lia).
        rewrite app_assoc in Q. apply app_inj_tail in Q as [_ <-]. reflexivity. }
  rewrite T. 
  assert (S1 : starts_with (lit ":") (colon a ++ rep n (ch "-") ++ colon b) = a).
  { destruct a; [reflexivity|]. destruct n; [lia|]. reflexivity. }
  assert (S2 : last_is (ch ":") (colon a ++ rep n (ch "-") ++ colon b) = b).
  { destruct b; cbn [colon].
    - apply last_is_iff. exists (colon a ++ rep n (ch "-")). now rewrite app_assoc.
    - destruct (last_is _ _) eqn:X; [|reflexivity]. apply last_is_iff in X as [v Q]. rewrite app_nil_r in Q. destruct n as [|n]; [lia|].
      replace (rep (S n) (ch "-")) with (rep n (ch "-") ++ rep 1 (ch "-")) in Q by (rewrite rep_app; f_equal; lia). rewrite app_assoc in Q. apply app_inj_tail in Q as [_ Q]. discriminate. }
  rewrite S1, S2. now destruct a, b.
Qed.
Definition align_raw : rule alignment := fun s x r => exists w a n b w', s = w ++ (colon a ++ rep n (ch "-") ++ colon b) ++ w' ++ r /\ 1 <= n /\ all is_space w /\ all is_space w' /\
  not_first is_space r /\ (b = false -> w' = [] -> ~ begins_with (ch "-") r /\ ~ begins_with (ch ":") r) /\ x = align_of a b.
Lemma core_stop : forall a n b r, 1 <= n -> not_first is_space ((colon a ++ rep n (ch "-") ++ colon b) ++ r).
Proof. intros a n b r L. destruct n; [lia|]. destruct a; cbn; apply not_first_cons; reflexivity. Qed.
Lemma exact_align : exact (pmap cell_alignment (delimited space0 (alt [recognize (delimited (chr ":") (many1 (chr "-")) (chr ":"));
          recognize (preceded (chr ":") (many1 (chr "-")));
          recognize (terminated (many1 (chr "-")) (chr ":"));
          recognize (many1 (chr "-"))]) space0)) align_raw.
Proof.
  eapply exact_iff; [eapply exact_pmap, exact_delimited; [ex|apply exact_core|ex]|]. intros s x r. cbv beta. unfold align_core, align_raw. split.
  - intros (v & (w & m & m' & w' & (-> & Hw & Nw) & (a & n & b & -> & L & -> & B) & (-> & Hw' & Nw')) & ->). exists w, a, n, b, w'. split; [reflexivity|]. split; [exact L|]. split; [exact Hw|]. split; [exact Hw'|].
    split; [exact Nw'|]. split; [intros Q ->; apply (B Q)|now apply align_value].
  - intros (w & a & n & b & w' & -> & L & Hw & Hw' & Nr & B & ->). exists (colon a ++ rep n (ch "-") ++ colon b). split; [|now rewrite align_value].
    exists w, ((colon a ++ rep n (ch "-") ++ colon b) ++ w' ++ r), (w' ++ r), w'. split; [split; [reflexivity|]; split; [exact Hw|now apply core_stop]|]. split; [|auto].
    exists a, n, b. split; [reflexivity|]. split; [exact L|]. split; [reflexivity|]. intro Q. destruct w' as [|c w']; [now apply B|]. inversion Hw'; subst. cbn [app]. split; intro X; apply begins_cons in X; subst c; discriminate.
Qed.
Lemma align_line_end : forall s r, line_end s r -> ~ applies align_raw s.
Proof.
  intros s r L (x & r' & w & a & n & b & w' & -> & Ln & Hw & _). destruct w as [|c w].
  - destruct n; [lia|]. destruct a; cbn in L; now apply line_end_not in L.
  - inversion Hw; subst. cbn [app] in L. now apply line_end_space in L.
Qed.
Lemma align_at_raw : forall s x r, begins_with (ch "|") r \/ (exists r', line_end r r') -> (align_raw s x r <-> align_at s x r).
Proof.
  intros s x r St.
  assert (Nf : not_first is_space r /\ ~ begins_with (ch "-") r /\ ~ begins_with (ch ":") r).
  { destruct St as [[t ->]|[r' L]].
    - split; [now apply not_first_cons|]. split; intro B; apply begins_cons in B; discriminate.
    - split; [eapply blank_stop, L|]. split; intros [t ->]; now apply line_end_not in L. }
  unfold align_raw, align_at. split.
  - intros (w & a & n & b & w' & -> & L & Hw & Hw' & _ & _ & ->). exists w, n, w'. split; [exact L|]. split; [exact Hw|]. split; [exact Hw'|]. rewrite <- !app_assoc. destruct a, b; cbn [colon align_of app]; auto 6.
  - intros (w & n & w' & L & Hw & Hw' & H).
    assert (X : exists a b, x = align_of a b /\ s = w ++ (colon a ++ rep n (ch "-") ++ colon b) ++ w' ++ r).
    { destruct H as [[-> ->]|[[-> ->]|[[-> ->]|[-> ->]]]]; [exists true, false|exists false, true|exists true, true|exists false, false]; rewrite <- !app_assoc; auto. }
    destruct X as (a & b & -> & ->). exists w, a, n, b, w'. tauto.
Qed.
Lemma exact_align_row : exact p_alignment_row (row align_at).
Proof.
  unfold p_alignment_row. eapply exact_iff; [apply exact_row; [apply exact_align|eats|apply align_line_end]|]. intros s l r. unfold row.
  split; intros (k & m & -> & Lk & C); exists k, m; (split; [reflexivity|]); (split; [exact Lk|]); now apply (cells_ext _ _ _ align_at_raw).
Qed.

(** ** Tables *)
Section Cfg.
  Variable cfg : config.
  Hypothesis Hcustom : custom_ok cfg.
  Hypothesis Htext : i_text cfg <> Ignore.
  Definition cell_reads (t : str) (l : list inline) : Prop := reads cfg (trim t) l.
  Lemma exact_table_row : exact (p_table_row cfg) (fun s l r => exists ts, row cell_at s ts r /\ Forall2 cell_reads ts l).
  Proof.
    unfold p_table_row. eapply exact_iff.
    - apply exact_row with (R := fun s l r => exists t, cell_at s t r /\ cell_reads t l).
      + unfold p_cell_content. eapply exact_iff; [eapply exact_bind; [apply exact_cell|intro t; apply exact_inl0; assumption]|]. intros s l r. cbv beta. unfold cell_reads.
        split; [intros (t & m & H & -> & R); eauto|intros (t & H & R); exists t, r; auto].
      + unfold p_cell_content. apply (eats_bind _ _ true false _ _ eats_cell). intro. apply eats_nested. 
      + intros s r L (l & r' & t & H & _). eapply cell_line_end; [exact L|]. now exists t, r'.
    - intros s l r. unfold row. split.
      + intros (k & m & -> & Lk & C). apply cells_map in C as (ts & C & F). exists ts. split; [eauto 6|exact F].
      + intros (ts & (k & m & -> & Lk & C) & F). exists k, m. split; [reflexivity|]. split; [exact Lk|]. apply cells_map. eauto.
  Qed.
  Lemma resize_cells : forall n ts c, row_cells cfg n ts c <-> exists l, Forall2 cell_reads ts l /\ c = resize_row n l.
  Proof.
    unfold resize_row. intros n ts c. split.
    - induction 1 as [ts|n c H (l & F & ->)|n t u i ts c T R H (l & F & ->)].
      + induction ts as [|t ts (l & F & Q)]; [exists []; split; [constructor|reflexivity]|]. destruct (reads_total cfg Hcustom Htext (trim t)) as [i R]. exists (i :: l). split; [now constructor|reflexivity].
      + inversion F; subst. exists []. split; [constructor|]. destruct n; reflexivity.
      + apply trimmed_eq in T as ->. exists (i :: l). split; [now constructor|reflexivity].
    - intros (l & F & ->). revert n. induction F as [|t i ts l R F IH]; intro n.
      + induction n as [|n IH]; [constructor|]. cbn. rewrite firstn_nil in IH. cbn in IH. rewrite Nat.sub_0_r in IH. apply row_missing. exact IH.
      + destruct n as [|n]; [constructor|]. cbn. eapply row_next; [apply trimmed_trim|exact R|apply IH].
  Qed.
  Lemma full_cells : forall ts l, Forall2 cell_reads ts l -> resize_row (len l) l = l.
  Proof. intros ts l _. unfold resize_row. rewrite firstn_all, Nat.sub_diag. cbn. apply app_nil_r. Qed.
  Definition makes_table (h : shape) (t : table) : Prop := exists header rows al h' l, h = HTable header rows al /\ t = Table (h' :: l) al /\
    row_cells cfg (len header) header h' /\ Forall2 (row_cells cfg (len header)) rows l.
  Lemma repeated_F2 : forall A B (R : rule A) (F : A -> B -> Prop), (forall a, exists b, F a b) -> forall s l r,
    repeated (fun s b r => exists a, R s a r /\ F a b) s l r <-> exists l', repeated R s l' r /\ Forall2 F l' l.
  Proof.
    intros A B R F T s l r. 
    assert (Ap : forall s, applies (fun s b r => exists a, R s a r /\ F a b) s <-> applies R s).
    { intro x. split; [intros (b & q & a & H & _); now exists a, q|]. intros (a & q & H). destruct (T a) as [b Fb]. exists b, q, a. auto. }
    split.
    - induction 1 as [s N|s b m l r (a & H & Fb) _ (l' & M & F')]; [exists []; split; [constructor; now rewrite <- Ap|constructor]|]. exists (a :: l'). split; [now apply rep_more with m|now constructor].
    - intros (l' & M & F'). revert l F'. induction M as [s N|s a m l' r H M IH]; intros l F'; inversion F' as [|? b ? l2 Fb F2]; subst; [constructor; now rewrite Ap|].
      apply rep_more with m; [now exists a|now apply IH].
  Qed.
  Lemma exact_table : exact (p_table cfg) (fun s t r => exists h, r_table s h r /\ makes_table h t).
  Proof.
    unfold p_table. eapply exact_iff.
    - eapply exact_bind; [apply exact_table_row|]. intro h. cbv zeta. eapply exact_bind; [apply exact_align_row|]. intro al.
      instantiate (1 := fun al s t r => len al = len h /\ exists l, repeated (fun s b r => exists a, row cell_at s a r /\ row_cells cfg (len h) a b) s l r /\ t = Table (h :: l) al).
      destruct (len al =? len h) eqn:E; cbn [negb].
      + apply Nat.eqb_eq in E. eapply exact_iff.
        * eapply exact_bind; [|intro; apply exact_ret]. apply exact_repeated; [eapply exact_pmap, exact_table_row|eats].
        * intros s t r. cbv beta. split.
          -- intros (l & m & H & -> & ->). split; [exact E|]. exists l. split; [|reflexivity]. revert H. apply repeated_ext. clear s. intros s a q.
             split; [intros (c & R & Fc); apply resize_cells in Fc as (l0 & F & ->); eauto|intros (l0 & (ts & R & F) & ->); exists ts; split; [exact R|]; apply resize_cells; eauto].
          -- intros (_ & l & H & ->). exists l, r. split; [|auto]. revert H. apply repeated_ext. clear s. intros s a q.
             split; [intros (l0 & (ts & R & F) & ->); exists ts; split; [exact R|]; apply resize_cells; eauto|intros (c & R & Fc); apply resize_cells in Fc as (l0 & F & ->); eauto].
      + apply Nat.eqb_neq in E. eapply exact_iff; [apply exact_fail|]. intros; split; [tauto|]. intros [? _]; contradiction.
    - intros s t r. cbv beta. split.
      + intros (h & m1 & (ts & R & F) & al & m2 & Ra & Ll & l & M & ->). apply repeated_F2 in M as (rows & M & F2).
        * assert (Lh : len h = len ts) by (symmetry; eapply F2_length, F). exists (HTable ts rows al). split; [econstructor; eauto; congruence|]. exists ts, rows, al, h, l. rewrite <- Lh. split; [reflexivity|]. split; [reflexivity|]. split; [|exact F2].
          apply resize_cells. exists h. split; [exact F|]. symmetry. eapply full_cells, F.
        * intro ts'. clear - Hcustom Htext cfg. 
          assert (X : exists l, Forall2 cell_reads ts' l) by (induction ts' as [|t ts' (l & F)]; [exists []; constructor|]; destruct (reads_total cfg Hcustom Htext (trim t)) as [i R]; exists (i :: l); now constructor).
          destruct X as [l F]. eexists. apply resize_cells. eauto.
      + intros (hh & R & header & rows & al & h & l & -> & -> & Hh & Hl). inversion R as [s' header' m1 al' m2 rows' r' Rh Ra Ll M]; subst. apply resize_cells in Hh as (h0 & F & E).
        assert (Lh : len header = len h0) by (eapply F2_length, F). rewrite Lh, (full_cells _ _ F) in E. subst h0. exists h, m1. split; [eauto|]. exists al, m2. split; [exact Ra|]. split; [rewrite Ll; exact Lh|]. exists l. split; [|reflexivity].
        apply repeated_F2; [|exists rows; split; [exact M|rewrite Lh in Hl; exact Hl]]. intro ts'.
        assert (X : exists l, Forall2 cell_reads ts' l) by (clear - Hcustom Htext cfg; induction ts' as [|t ts' (l & F)]; [exists []; constructor|]; destruct (reads_total cfg Hcustom Htext (trim t)) as [i R]; exists (i :: l); now constructor).
        destruct X as [l' F']. eexists. apply resize_cells. eauto.
  Qed.
End Cfg.
