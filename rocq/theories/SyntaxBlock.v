(** Exactness of the leaf-level block parsers: each computes its rule. *)
From Coq Require Import String Lia.
From Verif Require Import SpecParser Nom NomFacts ParserLeaf ParserTotal ParserCode SpecInline SyntaxFacts SyntaxInline SyntaxInline2 ParserBlock ParserBlockFacts SpecBlock SyntaxLines NumFacts.
Import ListNotations.
Open Scope list_scope.
Local Notation len := (@List.length _).

Lemma rep_cons : forall n c, rep (S n) c = c :: rep n c. Proof. reflexivity. Qed.
Lemma rep_app : forall n m c, rep n c ++ rep m c = rep (n + m) c.
Proof. induction n as [|n IH]; intros m c; [reflexivity|]. cbn [plus]. rewrite !rep_cons. cbn. now rewrite IH. Qed.
Lemma begins_rep : forall x n c s, 1 <= n -> begins_with x (rep n c ++ s) -> x = c.
Proof. intros x [|n] c s L [t E]; [lia|]. now injection E as ->. Qed.
Lemma begins_cons : forall x c s, begins_with x (c :: s) <-> c = x.
Proof. intros. split; [intros [t E]; now injection E|intros ->; now exists s]. Qed.
(** the same run of spaces in front of something else *)
Lemma rep_inj : forall c n n' m m', rep n c ++ m = rep n' c ++ m' -> ~ begins_with c m -> ~ begins_with c m' -> n = n' /\ m = m'.
Proof.
  intros c. induction n as [|n IH]; intros [|n'] m m' E H H'.
  - auto.
  - cbn in E. subst m. elim H. now exists (rep n' c ++ m').
  - cbn in E. subst m'. elim H'. now exists (rep n c ++ m).
  - rewrite !rep_cons in E. injection E as E. apply IH in E as [-> ->]; auto.
Qed.
Lemma line_end_space : forall c s r, is_space c = true -> ~ line_end (c :: s) r.
Proof. intros c s r H X. apply line_end_first in X as [->| ->]; discriminate. Qed.

(** ** Thematic breaks and underlines *)
Definition solid (c : char) : Prop := is_space c = false /\ c <> 10%N /\ c <> 13%N.
Lemma solid_blank : forall c w m r, solid c -> all is_space w -> line_end m r -> ~ begins_with c (w ++ m).
Proof.
  intros c [|x w] m r (H1 & H2 & H3) H L [t E]; cbn in E.
  - subst m. apply line_end_first in L as [->| ->]; congruence.
  - injection E as -> _. inversion H; congruence.
Qed.
Lemma blank_stop : forall m r, line_end m r -> not_first is_space m.
Proof. intros m r L x [t ->]. apply line_end_first in L as [->| ->]; reflexivity. Qed.
(** a run of one of several characters *)
Definition run_at (cs : str) (min : nat) (s : str) (c : char) (r : str) : Prop :=
  In c cs /\ exists n, s = rep n c ++ r /\ min <= n /\ ~ begins_with c r.
Lemma run_at_one : forall c min s r, (exists l, exists n, l = rep n c /\ s = rep n c ++ r /\ min <= n /\ ~ begins_with c r) <-> run_at [c] min s c r.
Proof.
  intros c min s r. unfold run_at. split; [intros (l & n & _ & H); split; [now left|eauto]|intros (_ & n & H); exists (rep n c), n; auto].
Qed.
Lemma run_at_char : forall cs min s c r x, 1 <= min -> run_at cs min s c r -> begins_with x s -> x = c.
Proof. intros cs min s c r x L (_ & n & -> & Ln & _) H. apply begins_rep in H; [exact H|lia]. Qed.
Lemma run_at_begins : forall cs min s c r, 1 <= min -> run_at cs min s c r -> begins_with c s.
Proof. intros cs min s c r L (_ & [|n] & -> & Ln & _); [lia|]. now exists (rep n c ++ r). Qed.
Lemma exact_break3 : exact (alt [many_ge 3 (chr "-"); many_ge 3 (chr "_"); many_ge 3 (chr "*")])
  (fun s v r => exists c n, In c (lit "-_*") /\ v = rep n c /\ s = rep n c ++ r /\ 3 <= n /\ ~ begins_with c r).
Proof.
  eapply exact_iff; [ex; apply exact_run_ge|]. intros s v r. cbv beta. split.
  - intros [(n & H)|[_ [(n & H)|[_ (n & H)]]]]; [exists (ch "-")|exists (ch "_")|exists (ch "*")]; exists n; (split; [cbn; auto|exact H]).
  - intros (c & n & I & -> & -> & L & N). cbn in I. destruct I as [<-|[<-|[<-|[]]]].
    + left. eauto 6.
    + right. split; [|left; eauto 6]. intros (a & r' & n' & _ & E & L' & _). destruct n; [lia|]. destruct n'; [lia|]. discriminate.
    + right. split; [|right; split; [|eauto 6]]; intros (a & r' & n' & _ & E & L' & _); (destruct n; [lia|]); (destruct n'; [lia|]); discriminate.
Qed.
Lemma dashes_solid : forall c, In c (lit "-_*=") -> solid c.
Proof. intros c H. cbn in H. destruct H as [<-|[<-|[<-|[<-|[]]]]]; repeat split; discriminate. Qed.
Lemma exact_thematic : exact p_thematic_break (fun s _ r => r_break_line s HBreak r).
Proof.
  unfold p_thematic_break. eapply exact_iff.
  - eapply exact_unit, exact_lt, exact_up3; [eapply exact_terminated; [apply exact_break3|ex]|]. intros t a r (m & b & (c & n & I & _ & E & L & _) & _). destruct n; [lia|].
    injection E as <- _. cbn in I. destruct I as [I|[I|[I|[]]]]; discriminate.
  - intros s [] r. cbv beta. split.
    + intros (v & m & (k & m1 & -> & Lk & m2 & w & (c & n & I & -> & -> & L & _) & -> & Hw & _) & E). econstructor; eassumption.
    + intro H. inversion H as [k c n w m r' Lk L I Hw E]; subst. exists (rep n c), m. split; [|exact E]. exists k, (rep n c ++ w ++ m). split; [reflexivity|].
      split; [exact Lk|]. exists (w ++ m), w. split.
      * exists c, n. split; [exact I|]. split; [reflexivity|]. split; [reflexivity|]. split; [exact L|].
        eapply solid_blank; [|exact Hw|exact E]. apply dashes_solid. cbn in *. tauto.
      * split; [reflexivity|]. split; [exact Hw|]. eapply blank_stop, E.
Qed.
Lemma exact_level : exact (terminated (alt [value Level1 (many1 (chr "=")); value Level2 (many1 (chr "-"))]) space0)
  (fun s l r => exists c n w, In (c, l) [(ch "=", Level1); (ch "-", Level2)] /\ s = rep n c ++ w ++ r /\ 1 <= n /\ ~ begins_with c (w ++ r) /\ all is_space w /\ not_first is_space r).
Proof.
  eapply exact_iff; [ex|]. intros s l r. cbv beta. split.
  - intros (m & w & [(-> & ls & N & H)|(_ & -> & ls & N & H)] & -> & Hw & Hr); apply many_run in H as (n & -> & -> & Nb);
      [exists (ch "=")|exists (ch "-")]; exists n, w; (split; [cbn; auto|]); (split; [reflexivity|]); (split; [destruct n; [now elim N|lia]|]); auto.
  - intros (c & n & w & I & -> & L & Nb & Hw & Hr). exists (w ++ r), w. split; [|auto]. destruct n as [|n]; [lia|]. cbn in I. destruct I as [I|[I|[]]]; injection I as <- <-.
    + left. split; [reflexivity|]. exists (rep (S n) (ch "=")). split; [discriminate|]. apply many_run. eauto.
    + right. split.
      * intros (a & r' & _ & ls & N & H). apply many_run in H as ([|n'] & -> & E & _); [now elim N|discriminate].
      * split; [reflexivity|]. exists (rep (S n) (ch "-")). split; [discriminate|]. apply many_run. eauto.
Qed.
Lemma exact_underline : exact p_heading_v2_level underline.
Proof.
  unfold p_heading_v2_level. eapply exact_iff.
  - eapply exact_lt, exact_up3.
    + apply exact_level.
    + intros t a r (c & n & w & I & E & L & _). destruct n; [lia|]. injection E as <- _. cbn in I. destruct I as [I|[I|[]]]; discriminate.
  - intros s l r. cbv beta. unfold underline. split.
    + intros (m & (k & m1 & -> & Lk & c & n & w & I & -> & L & Nb & Hw & Hr) & E). exists k, c, n, w, m. auto 8.
    + intros (k & c & n & w & m & -> & Lk & L & I & Hw & E). exists m. split; [|exact E]. exists k, (rep n c ++ w ++ m). split; [reflexivity|]. split; [exact Lk|].
      exists c, n, w. split; [exact I|]. split; [reflexivity|]. split; [exact L|]. split; [|split; [exact Hw|eapply blank_stop, E]].
      eapply solid_blank; [|exact Hw|exact E]. apply dashes_solid. cbn in *. destruct I as [I|[I|[]]]; injection I as <- _; tauto.
Qed.

(** ** Code blocks *)
Lemma exact_code_line : exact (preceded (alt [p_unit (many_m_n 4 4 (chr " ")); p_unit (char_ c_tab)]) (line_terminated not_eof_or_eol0)) code_line.
Proof.
  eapply exact_iff; [ex; [apply exact_spaces; lia|apply exact_plain_line]|]. intros s v r. cbv beta. unfold code_line. split.
  - intros (u & m & [(l & n & -> & -> & H & _)|(_ & a & -> & ->)] & X); exists m; (split; [|exact X]); [left; now replace n with 4 by lia|now right].
  - intros (m & [->| ->] & X); exists tt, m; (split; [|exact X]).
    + left. exists (rep 4 c_sp), 4. repeat split; lia.
    + right. split; [|eauto]. intros (_ & r' & l & n & -> & E & H & _). destruct n; [lia|]. discriminate.
Qed.
Lemma eats_code_line : eats true (preceded (alt [p_unit (many_m_n 4 4 (chr " ")); p_unit (char_ c_tab)]) (line_terminated not_eof_or_eol0)).
Proof. unfold line_terminated. eats. Qed.
Lemma exact_fence_end : forall f n, In f (lit "`~") -> 3 <= n ->
  exact (p_ending_fence (rep n f)) (fun s _ r => fence_end f n s r).
Proof.
  intros f n If Ln. unfold p_ending_fence. replace (hd 0%N (rep n f)) with f by (destruct n; [lia|reflexivity]).
  assert (Sf : solid f) by (cbn in If; destruct If as [<-|[<-|[]]]; repeat split; discriminate).
  eapply exact_iff; [eapply exact_unit, exact_lt; ex; apply exact_strip|]. intros s [] r. cbv beta. unfold fence_end. split.
  - intros ([a [b c]] & m & (m1 & (k & E1 & E2 & Lk & _) & m2 & (E3 & E4) & H) & E). cbn [fst snd] in *. subst. apply many_run in H as (j & -> & -> & _).
    exists k, (n + j), m. rewrite <- rep_app, <- !app_assoc. split; [reflexivity|]. split; [exact Lk|]. split; [lia|exact E].
  - intros (k & j & m & -> & Lk & Lj & E). exists (rep k c_sp, (rep n f, rep (j - n) f)), m. split; [|exact E]. cbn [fst snd].
    exists (rep j f ++ m). split.
    + exists k. split; [reflexivity|]. split; [reflexivity|]. split; [exact Lk|]. intros _ B. apply begins_rep in B; [|lia]. destruct Sf as [X _]. subst f. discriminate.
    + exists (rep (j - n) f ++ m). split.
      * split; [reflexivity|]. rewrite app_assoc, rep_app. now replace (n + (j - n)) with j by lia.
      * apply many_run. exists (j - n). split; [reflexivity|]. split; [reflexivity|]. apply (solid_blank f [] m r Sf (Forall_nil _) E).
Qed.
Lemma exact_fence_open : exact (line_terminated (pair_ (recognize (alt [many_ge 3 (char_ backtick); many_ge 3 (chr "~")])) (opt (recognize not_eof_or_eol1))))
  (fun s x r => exists f n m, fst x = rep n f /\ s = rep n f ++ m /\ In f (lit "`~") /\ 3 <= n /\ ~ begins_with f m /\
     (snd x = None /\ line_end m r \/ exists v, snd x = Some v /\ text_line m v r)).
Proof.
  assert (F : exact (recognize (alt [many_ge 3 (char_ backtick); many_ge 3 (chr "~")])) (fun s v r => exists f n, v = rep n f /\ s = rep n f ++ r /\ In f (lit "`~") /\ 3 <= n /\ ~ begins_with f r)).
  { eapply exact_iff; [ex; apply exact_run_ge|]. intros s v r. cbv beta. split.
    - intros (-> & a & [(n & -> & E & H)|(_ & n & -> & E & H)]); apply app_inv_tail in E as ->; [exists backtick|exists (ch "~")]; exists n; repeat split; try apply H; cbn; auto.
    - intros (f & n & -> & -> & I & L & N). split; [reflexivity|]. exists (rep n f). cbn in I. destruct I as [<-|[<-|[]]].
      + left. eauto 6.
      + right. split; [|eauto 6]. intros (a & r' & n' & _ & E & L' & _). destruct n; [lia|]. destruct n'; [lia|]. discriminate. }
  eapply exact_iff.
  - eapply exact_lt. eapply exact_pair; [exact F|]. eapply exact_opt. eapply exact_recognize; [apply exact_rest_text|]. eats.
  - intros s [a o] r. cbv beta. cbn [fst snd]. split.
    + intros (m2 & (m & (f & n & -> & -> & I & L & N) & X) & E). exists f, n, m. split; [reflexivity|]. split; [reflexivity|]. split; [exact I|]. split; [exact L|]. split; [exact N|].
      destruct o as [v|].
      * right. destruct X as (-> & v' & (X & H1 & H2 & _ & H3)). apply app_inv_tail in X as ->. exists v'. split; [reflexivity|]. exists m2. auto.
      * left. destruct X as [-> _]. auto.
    + intros (f & n & m & -> & -> & I & L & N & [(-> & E)|(v & -> & m2 & -> & H1 & H2 & E & H3)]).
      * exists m. split; [|exact E]. exists m. split; [eauto 8|]. split; [reflexivity|]. intros (v & r' & -> & v' & (X & Y1 & Y2 & _ & Y3)).
        apply app_inv_tail in X as ->. destruct v' as [|c v']; [now elim Y1|]. apply line_end_first in E as K. destruct K as [->| ->]; [apply Y2; now left|].
        apply line_end_cr in E. destruct v' as [|d v'].
        -- cbn in E. subst r'. apply Y3. split; [now exists r|now exists []].
        -- injection E as -> _. apply Y2. right. now left.
      * exists m2. split; [|exact E]. exists (v ++ m2). split; [eauto 8|]. split; [reflexivity|]. exists v. split; [reflexivity|]. eauto 6.
Qed.
Definition fence_line (fence : str) (k : nat) : parser str :=
  preceded (peek (not_ (p_ending_fence fence))) (preceded (many_m_n 0 k (chr " ")) (line_terminated not_eof_or_eol0)).
Lemma ending_safe : forall fence, safe (p_ending_fence fence).
Proof. intro fence. eapply exact_safe. unfold p_ending_fence. eapply exact_unit, exact_lt. ex. apply exact_strip. Qed.
Lemma exact_fence_line : forall fence k, exact (fence_line fence k) (fun s v r => (~ exists x r', graph (p_ending_fence fence) s x r') /\ exists m, strip k s m /\ plain_line m v r).
Proof.
  intros fence k. unfold fence_line. eapply exact_iff; [eapply exact_preceded; [eapply exact_peek_not, exact_graph, ending_safe|apply exact_strip_then, exact_plain_line]|].
  intros s v r. unfold ahead. split.
  - intros ([] & m & (-> & N) & X). auto.
  - intros (N & X). exists tt, s. auto.
Qed.
Lemma exact_fenced_line : forall f n k, In f (lit "`~") -> 3 <= n -> exact (fence_line (rep n f) k) (fenced_line k f n).
Proof.
  intros f n k If Ln. eapply exact_iff; [apply exact_fence_line|]. intros s v r. unfold fenced_line, graph. split; intros (N & X); (split; [|exact X]).
  - intros r' E. apply N. exists tt, r'. now apply (exact_ok _ _ (exact_fence_end f n If Ln)).
  - intros ([] & r' & E). apply (exact_inv _ _ (exact_fence_end f n If Ln)) in E. exact (N r' E).
Qed.
Lemma eats_fence_line : forall fence k, eats false (fence_line fence k).
Proof. intros. unfold fence_line, line_terminated. eats. Qed.
Lemma exact_fenced : exact p_code_block_fenced (fun s c r => r_fenced s (HCode c) r).
Proof.
  unfold p_code_block_fenced. eapply exact_iff.
  - eapply exact_bind; [apply exact_strip|]. intro sp. cbv zeta. eapply exact_bind_pair; [apply exact_fence_open|]. intros fence info. cbv beta iota.
    eapply exact_bind; [eapply (exact_repeated _ (fence_line fence (len sp))); [apply exact_graph, (exact_safe _ _ _ (exact_fence_line fence (len sp)))|apply eats_fence_line]|]. intro ls. eapply exact_bind; [apply exact_graph, ending_safe|]. intro u. apply exact_ret.
  - intros s c r. cbv beta. cbn [fst snd]. split.
    + intros (sp & m0 & (k & -> & -> & Lk & _) & fence & info & m1 & (f & n & m & -> & -> & If & Ln & Nb & Hi) & ls & m2 & Hl & [] & m3 & He & -> & ->).
      apply (exact_inv _ _ (exact_fence_end f n If Ln)) in He. rewrite rep_length in Hl.
      econstructor; try eassumption. eapply repeated_ext; [|exact Hl]. intros s' v' r'. unfold graph. symmetry. apply (proj2 (exact_fenced_line f n k If Ln)).
    + intro H. inversion H as [k f n m info m1 ls m2 r' Lk If Ln Nb Hi Hl He E1 E2]; subst. exists (rep k c_sp), (rep n f ++ m). split.
      * exists k. split; [reflexivity|]. split; [reflexivity|]. split; [exact Lk|]. intros _ B. apply begins_rep in B; [|lia]. cbn in If. destruct If as [<-|[<-|[]]]; discriminate.
      * exists (rep n f), info, m1. split; [exists f, n, m; auto 8|]. exists ls, m2. split.
        -- rewrite rep_length. eapply repeated_ext; [|exact Hl]. intros s' v' r''. unfold graph. apply (proj2 (exact_fenced_line f n k If Ln)).
        -- exists tt, r. split; [now apply (exact_ok _ _ (exact_fence_end f n If Ln))|auto].
Qed.
Lemma rep_code : forall s ls r, ls <> [] -> repeated code_line s ls r -> exists m, s = rep 4 c_sp ++ m \/ s = c_tab :: m.
Proof. intros s ls r N H. inversion H as [|? v m ? ? (m' & X & _) _]; subst; [now elim N|eauto]. Qed.
Lemma exact_code_block : exact (pmap BCodeBlock p_code_block) (fun s b r => exists c, b = BCodeBlock c /\ r_code_block s (HCode c) r).
Proof.
  unfold p_code_block, p_code_block_indented. eapply exact_iff.
  - eapply exact_pmap. change_alt. eapply exact_or; [|unfold alt; apply exact_fenced]. eapply exact_bind; [eapply exact_repeated1; [apply exact_code_line|eapply eats_weaken, eats_code_line]|]. intro ls. apply exact_ret.
  - intros s b r. cbv beta. split.
    + intros (c & [(ls & m & (N & H) & -> & ->)|(_ & H)] & ->); eexists; (split; [reflexivity|]); [now apply R_indented|now apply R_fence].
    + intros (c & -> & H). exists c. split; [|reflexivity]. inversion H as [s' ls r' N X|s' h r' X]; subst.
      * left. exists ls, r. auto.
      * right. split; [|exact X]. intros (c' & r' & ls & m & (N & Y) & _). apply rep_code in Y as [q Y]; [|exact N]. inversion X as [k f n m' info m1 ls' m2 r'' Lk If Ln]; subst.
        destruct Y as [Y|Y].
        -- assert (k <= 3 -> rep k c_sp ++ rep n f ++ m' <> rep 4 c_sp ++ q) as G; [|now elim (G Lk)]. clear Y. intros _ Y. destruct n; [lia|].
           destruct k as [|[|[|[|k]]]]; [..|lia]; injection Y as Y _; subst f; cbn in If; destruct If as [If|[If|[]]]; discriminate.
        -- destruct k as [|k]; [|discriminate]. destruct n; [lia|]. injection Y as Y _. subst f. cbn in If. destruct If as [If|[If|[]]]; discriminate.
Qed.

(** ** ATX headings *)
Lemma exact_atx_line : forall bare, exact
  (prefix <- many_m_n 1 6 (chr "#") ;; _ <- (if bare : bool then space0 else space1) ;; content <- line_terminated not_eof_or_eol1 ;; ret (List.length prefix, content))
  (fun s x r => exists k, k = N.of_nat (fst x) /\ r_atx bare s (HHeading (Atx k) (snd x)) r).
Proof.
  intro bare. eapply exact_iff.
  - eapply exact_bind; [apply exact_spaces; lia|]. intro pre. eapply exact_bind with (R := fun s w m => longest is_space s w m /\ (w = [] -> bare = true)).
    + destruct bare; (eapply exact_iff; [ex|]); intros s w m; cbv beta; unfold longest; change (fun c => forall _, _) with (fun _ : char => True); unfold not_first.
      * split; [intros H; split; [exact H|auto]|now intros [H _]].
      * split; [intros (N & H); split; [exact H|now intros ->]|]. intros [H N]. split; [intro E; now specialize (N E)|exact H].
    + intro w. eapply exact_bind; [apply exact_text_line|]. intro v. apply exact_ret.
  - intros s [n v] r. cbv beta. cbn [fst snd]. split.
    + intros (pre & m0 & (k & -> & -> & Lk & Nb) & w & m & (HL & Hb) & v' & m' & Ht & E & ->). injection E as -> ->. rewrite rep_length.
      exists (N.of_nat k). split; [reflexivity|]. pose proof HL as (E & _). rewrite E. rewrite E in Nb, HL. apply R_atx; [lia|exact Nb|exact HL|exact Hb|exact Ht].
    + intros (k & -> & H). inversion H as [n' w m v' r' Ln Nb HL Hb Ht E1 E2 E3]; subst. apply Nnat.Nat2N.inj in E2 as ->. exists (rep n (ch "#")), (w ++ m). split.
      * exists n. auto.
      * exists w, m. split; [auto|]. exists v, r. split; [exact Ht|]. rewrite rep_length. auto.
Qed.

(** ** Quotes *)
Lemma not_space : forall c t a r, c <> c_sp -> ~ (a = c /\ c_sp :: t = c :: r).
Proof. intros c t a r N [_ E]. injection E as E _. congruence. Qed.
Lemma exact_quote_prefix : exact p_quote_prefix (fun s _ r => exists k, s = rep k c_sp ++ ch ">" :: r /\ k <= 3).
Proof.
  unfold p_quote_prefix. eapply exact_iff; [eapply exact_up3; [ex|]; intros t a r; apply not_space; discriminate|]. intros s a r. cbv beta. split.
  - intros (k & m & -> & L & -> & ->). eauto.
  - intros (k & -> & L).
Abort.
Lemma exact_quote_line : exact (preceded p_quote_prefix (line_terminated not_eof_or_eol0)) quote_line.
Proof.
  unfold p_quote_prefix. eapply exact_iff; [eapply exact_preceded; [eapply exact_up3; [ex|]; intros t a r; apply not_space; discriminate|apply exact_plain_line]|].
  intros s v r. cbv beta. unfold quote_line. split.
  - intros (a & m & (k & m' & -> & L & -> & ->) & X). eauto 6.
  - intros (k & m & -> & L & X). exists (ch ">"), m. split; [|exact X]. exists k, (ch ">" :: m). auto.
Qed.
Lemma eats_quote_line : eats true (preceded p_quote_prefix (line_terminated not_eof_or_eol0)).
Proof. unfold p_quote_prefix, line_terminated. eats. Qed.
Lemma exact_quote_lines : exact p_quote_lines (fun s ls r => ls <> [] /\ repeated quote_line s ls r).
Proof. unfold p_quote_lines. apply exact_repeated1; [apply exact_quote_line|eapply eats_weaken, eats_quote_line]. Qed.

(** ** Footnotes *)
Lemma lines_content_join : forall v ls, lines_content v ls = join [c_nl] (v :: ls).
Proof.
  intros v ls. unfold lines_content. revert v. induction ls as [|l ls IH]; intro v; cbn [flat_map join]; [now rewrite app_nil_r|].
  cbn [app]. f_equal. change (c_nl :: l ++ flat_map (fun l0 => c_nl :: l0) ls) with ([c_nl] ++ (l ++ flat_map (fun l0 => c_nl :: l0) ls)). now rewrite IH.
Qed.
Lemma exact_footnote_line : exact (preceded (many_m_n 3 3 (chr " ")) (line_terminated not_eof_or_eol1)) footnote_line.
Proof.
  eapply exact_iff; [eapply exact_preceded; [apply exact_spaces; lia|apply exact_text_line]|]. intros s v r. cbv beta. unfold footnote_line. split.
  - intros (a & m & (n & -> & -> & H & _) & X). exists m. split; [now replace n with 3 by lia|exact X].
  - intros (m & -> & X). exists (rep 3 c_sp), m. split; [|exact X]. exists 3. repeat split; lia.
Qed.
Lemma none_units : forall s l r, many_of (fun s c r => (s = c :: r /\ ~ In c (lit "]")) /\ negb (N.eqb c (ch "]")) = true) s l r <->
  s = l ++ r /\ ~ In (ch "]") l /\ (forall c, begins_with c r -> c = ch "]").
Proof.
  intros s l r. split.
  - induction 1 as [s N|s c m l r [[-> H1] H2] L Y (-> & I1 & I2)].
    + split; [reflexivity|]. split; [auto|]. intros c [t ->]. destruct (N.eqb c (ch "]")) eqn:E; [now apply N.eqb_eq in E|]. elim N. exists c, t.
      rewrite E. split; [|reflexivity]. split; [reflexivity|]. intros [X|[]]. subst c. discriminate.
    + split; [reflexivity|]. split; [|exact I2]. intros [->|I]; [|now apply I1]. apply H1. now left.
  - intros (-> & N & B). induction l as [|c l IH].
    + apply many_stop. intros (c & t & [E X] & _). cbn in E. subst r. apply X. left. symmetry. apply B. now exists t.
    + refine (many_step _ _ c _ _ _ _ _ (IH _)).
      * assert (c <> ch "]") as X by (intros ->; apply N; now left). split; [split; [reflexivity|]|].
        -- intros [E|[]]. now elim X.
        -- rewrite negb_true_iff. now apply N.eqb_neq.
      * cbn. unfold char, str in *. lia.
      * intro I. apply N. now right.
Qed.
Lemma exact_footnote_lines : exact p_footnote_lines (fun s x r => r_footnote_def s (HFootnote (fst x) (snd x)) r).
Proof.
  unfold p_footnote_lines. eapply exact_iff.
  - eapply exact_bind; [apply exact_strip|]. intro sp. eapply exact_bind; [ex|]. intro t1. eapply exact_bind; [ex|]. intro label.
    eapply exact_bind; [ex|]. intro t2. eapply exact_bind; [apply exact_strip|]. intro sp2. eapply exact_bind; [apply exact_text_line|]. intro first.
    eapply exact_bind; [apply exact_repeated; [apply exact_footnote_line|unfold line_terminated; eats]|]. intro rest. apply exact_ret.
  - intros s [label content] r. cbv beta. cbn [fst snd]. split.
    + intros (sp & m0 & (k & -> & -> & Lk & _) & t1 & m1 & (-> & ->) & lb & m2 & (-> & l & Nl & Hl) & t2 & m3 & (-> & ->) & sp2 & m4 & (j & -> & -> & Lj & Nj) & v & m5 & Hv & ls & m6 & Hr & E & ->).
      injection E as -> ->. apply none_units in Hl as (E & N & _). apply app_inv_tail in E as ->. rewrite lines_content_join.
      econstructor; try eassumption. exists j. auto.
    + intro H. inversion H as [k lb m m1 v m2 ls r' Lk Nl Nb (j & -> & Lj & Nj) Hv Hr E1 E2]; subst.
      exists (rep k c_sp), (lit "[^" ++ label ++ lit "]:" ++ rep j c_sp ++ m1). split.
      * exists k. split; [reflexivity|]. split; [reflexivity|]. split; [exact Lk|]. intros _ [t X]. discriminate.
      * exists (lit "[^"), (label ++ lit "]:" ++ rep j c_sp ++ m1). split; [auto|]. exists label, (lit "]:" ++ rep j c_sp ++ m1). split.
        -- split; [reflexivity|]. exists label. split; [exact Nl|]. apply none_units. split; [reflexivity|]. split; [exact Nb|]. intros c [t X]. now injection X as <- _.
        -- exists (lit "]:"), (rep j c_sp ++ m1). split; [auto|]. exists (rep j c_sp), m1. split; [exists j; auto|].
           exists v, m2. split; [exact Hv|]. exists ls, r. split; [exact Hr|]. rewrite lines_content_join. auto.
Qed.

(** ** Lists *)
Lemma exact_u64 : exact u64 (fun s n r => exists ds, ds <> [] /\ longest is_digit s ds r /\ (dec_value ds < 2 ^ 64)%N /\ n = dec_value ds).
Proof.
  assert (M : forall n, (n <=? u64_max)%N = true <-> (n < 2 ^ 64)%N) by (intro n; rewrite N.leb_le; unfold u64_max; cbn; lia). split.
  - intro s. unfold u64. destruct (span is_digit s) as [[|d a] b]; [discriminate|]. destruct (_ <=? _)%N; discriminate.
  - intros s r n. unfold u64, longest. destruct (span is_digit s) as [a b] eqn:E. apply span_iff in E. split.
    + destruct a as [|d a]; [discriminate|]. destruct (_ <=? _)%N eqn:L; [|discriminate]. intro X. injection X as <- <-. apply M in L.
      exists (d :: a). split; [discriminate|]. auto.
    + intros (ds & N & H & L & ->). assert (X : span is_digit s = (ds, r)) by (apply span_iff; exact H). apply span_iff in E. rewrite X in E. injection E as <- <-.
      destruct ds as [|d ds]; [now elim N|]. apply M in L. now rewrite L.
Qed.
Lemma digits_stop : forall c r, In c (lit ".)") -> not_first is_digit (c :: r).
Proof. intros c r I. apply not_first_cons. cbn in I. destruct I as [<-|[<-|[]]]; reflexivity. Qed.
Lemma exact_ordered : exact p_marker_ordered (fun s k r => (exists n, k = Ordered n) /\ marker_at s k r).
Proof.
  unfold p_marker_ordered. eapply exact_iff; [ex; apply exact_u64|]. intros s k r. cbv beta. split.
  - intros (n & (m & c & (ds & N & (-> & H & _) & L & ->) & -> & I) & ->). split; [eauto|]. apply mark_number; [now apply numeral_dec|assumption|assumption].
  - intros [(n & ->) H]. inversion H as [ds n' c r' NU L I|]; subst. apply numeral_dec in NU as (N & A & ->). exists (dec_value ds). split; [|reflexivity]. exists (c :: r), c. split; [|auto].
    exists ds. split; [exact N|]. split; [|auto]. split; [reflexivity|]. split; [exact A|]. now apply digits_stop.
Qed.
Lemma exact_marker : exact p_list_marker marker_at.
Proof.
  unfold p_list_marker, p_marker_star, p_marker_plus, p_marker_dash. eapply exact_iff; [ex; apply exact_ordered|]. intros s k r. cbv beta. split.
  - intros [(_ & H)|(_ & [(-> & a & -> & ->)|(_ & [(-> & a & -> & ->)|(_ & -> & a & -> & ->)])])]; [exact H|..]; apply mark_bullet; cbn; auto.
  - intro H. inversion H as [ds n' c r' NU L I|c b r' I]; subst; [left; eauto|]. right.
    assert (Nd : is_digit c = false) by (cbn in I; destruct I as [I|[I|[I|[]]]]; injection I as <- _; reflexivity).
    split.
    + intros (k & r' & (n & ->) & X). inversion X as [ds n' c' r'' NU L I' E1 E2 E3|]; subst. apply numeral_dec in NU as (N & A & _). destruct ds as [|d ds]; [now elim N|]. injection E1 as -> _. inversion A; congruence.
    + cbn in I. destruct I as [I|[I|[I|[]]]]; injection I as <- <-.
      * left. eauto.
      * right. split; [|left; eauto]. intros (a & r' & _ & a' & _ & E). discriminate.
      * right. split; [|right; split; [|eauto]]; intros (a & r' & _ & a' & _ & E); discriminate.
Qed.
Lemma exact_marker_kind : forall k, exact (p_marker_of_kind k) (fun s k' r => marker_at s k' r /\ same_style k k').
Proof.
  assert (B : forall c b, In (c, b) [(ch "*", Star); (ch "+", Plus); (ch "-", Dash)] ->
    exact (value (Bullet b) (char_ c)) (fun s k' r => marker_at s k' r /\ same_style (Bullet b) k')).
  { intros c b I. eapply exact_iff; [ex|]. intros s k' r. cbv beta. split.
    - intros (-> & a & -> & ->). split; [now apply mark_bullet|reflexivity].
    - intros (H & E). inversion H as [|c' b' r' I']; subst; [destruct E|]. cbn in E. subst b'. split; [reflexivity|]. exists c. split; [reflexivity|]. f_equal.
      cbn in I, I'. destruct I as [I|[I|[I|[]]]]; injection I as <- <-; destruct I' as [I'|[I'|[I'|[]]]]; injection I' as I'; subst; congruence. }
  intros [n|[]]; cbn [p_marker_of_kind]; [|apply (B (ch "-")); cbn; auto|apply (B (ch "*")); cbn; auto|apply (B (ch "+")); cbn; auto].
  eapply exact_iff; [apply exact_ordered|]. intros s k' r. cbv beta. split; intros [H1 H2].
  - destruct H1 as [n' ->]. split; [exact H2|exact I].
  - split; [|exact H1]. destruct k' as [n'|]; [eauto|destruct H2].
Qed.
Lemma exact_task : exact p_task_state task_at.
Proof.
  unfold p_task_state. eapply exact_iff; [ex|]. intros s t r. cbv beta. split.
  - intros (a & m1 & m2 & b & (-> & ->) & [(-> & c & -> & I)|(_ & -> & c & -> & ->)] & -> & ->); [now constructor|]. apply (task_todo r).
  - intro H. inversion H as [c r' I|r']; subst.
    + exists (ch "["), (c :: ch "]" :: r), (ch "]" :: r), (ch "]"). split; [auto|]. split; [|auto]. left. eauto.
    + exists (ch "["), (lit " ]" ++ r), (ch "]" :: r), (ch "]"). split; [auto|]. split; [|auto]. right. split; [|eauto].
      intros (a & r' & _ & c & E & I). injection E as <- _. cbn in I. destruct I as [I|[I|[]]]; discriminate.
Qed.
Lemma exact_consumed : forall A (p : parser A) R, exact p R -> exact (consumed p) (fun s x r => R s (fst x) r /\ snd x = len s - len r).
Proof.
  intros A p R [H1 H2]. split.
  - intro s. unfold consumed. destruct (p s) eqn:E; try discriminate. now elim (H1 s).
  - intros s r [a n]. cbn [fst snd]. unfold consumed. split.
    + destruct (p s) as [r' a'| |] eqn:E; try discriminate. intro X. injection X as -> -> <-. split; [now apply H2|reflexivity].
    + intros [H ->]. apply H2 in H. now rewrite H.
Qed.
Lemma marker_len : forall s k r, marker_at s k r -> len r < len s.
Proof.
  intros s k r H. apply (exact_ok _ _ exact_marker) in H.
  assert (E : eats true p_list_marker) by (unfold p_list_marker, p_marker_ordered, p_marker_star, p_marker_plus, p_marker_dash; eats).
  exact (eats_lt _ _ _ _ _ E H).
Qed.
Lemma marker_not_space : forall t a r, ~ marker_at (c_sp :: t) a r.
Proof.
  intros t a r H. inversion H as [ds n c r' NU L I E|c b r' I E]; subst.
  - apply numeral_dec in NU as (N & A & _). destruct ds as [|d ds]; [now elim N|]. injection E as -> _. inversion A as [|? ? X]; subst. discriminate X.
  - cbn in I. destruct I as [I|[I|[I|[]]]]; discriminate.
Qed.
Lemma exact_up3_marker : exact (preceded up_to_3_spaces p_list_marker) (fun s k r => exists j m, s = rep j c_sp ++ m /\ j <= 3 /\ marker_at m k r).
Proof. apply exact_up3; [apply exact_marker|apply marker_not_space]. Qed.
Definition up3_marker (s : str) (k : list_kind) (r : str) : Prop := exists j m, s = rep j c_sp ++ m /\ j <= 3 /\ marker_at m k r.
Lemma up3_marker_fun : forall s k r k' r', up3_marker s k r -> up3_marker s k' r' -> k = k' /\ r = r'.
Proof. apply (exact_fun _ _ exact_up3_marker). Qed.
Lemma empty_iff : forall s x r, item_empty s x r <-> exists k m1 w m, up3_marker s k m1 /\ m1 = w ++ m /\ all is_space w /\ line_end m r /\ x = (k, len s - len m1 + 1, None, []).
Proof.
  intros s x r. split.
  - intro H. inversion H as [j s' k w m r' Lj Hm Hw He]; subst. exists k, (w ++ m), w, m. split; [exists j, s'; auto|]. split; [reflexivity|]. split; [exact Hw|]. split; [exact He|].
    apply marker_len in Hm. rewrite !app_length, !rep_length in *. do 3 f_equal. unfold char, str in *. lia.
  - intros (k & m1 & w & m & (j & s' & -> & Lj & Hm) & -> & Hw & He & ->). pose proof (marker_len _ _ _ Hm) as L. rewrite app_length, rep_length.
    replace (j + len s' - len (w ++ m) + 1) with (j + (len s' - len (w ++ m)) + 1) by (unfold char, str in *; lia). now constructor.
Qed.
Lemma task_iff : forall s x r, item_task s x r <-> exists k m0 j m1 t m, up3_marker s k m0 /\ m0 = rep j c_sp ++ m1 /\ j <= 3 /\ task_at m1 t m /\ line_end m r /\ x = (k, len s - len m0 + j + 1, Some t, []).
Proof.
  intros s x r. split.
  - intro H. inversion H as [i s' k j t m1 m r' Li Hm Lj Ht He]; subst. exists k, (rep j c_sp ++ m1), j, m1, t, m. split; [exists i, s'; auto|]. split; [reflexivity|]. split; [exact Lj|]. split; [exact Ht|]. split; [exact He|].
    apply marker_len in Hm. rewrite !app_length, !rep_length in *. do 3 f_equal. unfold char, str in *. lia.
  - intros (k & m0 & j & m1 & t & m & (i & s' & -> & Li & Hm) & -> & Lj & Ht & He & ->). pose proof (marker_len _ _ _ Hm) as L. rewrite !app_length, !rep_length in *.
    replace (i + len s' - (j + len m1) + j + 1) with (i + (len s' - len m1) + 1) by (unfold char, str in *; lia). econstructor; eassumption.
Qed.
Lemma task_not_space : forall m t r, task_at m t r -> ~ begins_with c_sp m.
Proof. intros m t r H [x ->]. inversion H. Qed.
Lemma exact_newline_start : exact p_marker_newline (fun s x r => first_of [item_empty; item_task] s (x, []) r).
Proof.
  unfold p_marker_newline. eapply exact_iff.
  - eapply exact_bind_pair; [apply exact_consumed, exact_up3_marker|]. intros k n. cbv beta iota. eapply exact_or; [eapply exact_pmap, exact_blank_space|].
    eapply exact_bind_pair; [apply exact_consumed, exact_strip|]. intros sp j. cbv beta iota. eapply exact_bind; [apply exact_lt, exact_task|]. intro t. apply exact_ret.
  - intros s x r. cbv beta. cbn [fst snd first_of]. split.
    + intros (k & n & m0 & (H & ->) & [(w & (m & -> & Hw & He) & ->)|(N & sp & j' & m1 & ((j & -> & -> & Lj & Nj) & ->) & t & m & (m' & Ht & He) & -> & ->)]).
      * left. apply empty_iff. exists k, (w ++ m), w, m. auto 6.
      * right. split; [|left].
        -- intros (q & r' & X). apply empty_iff in X as (k' & m0' & w & m2 & H' & E & Hw & He' & _). destruct (up3_marker_fun _ _ _ _ _ H H') as [Ek Em]. subst k'.
           apply N. eexists _, r', w. split; [|reflexivity]. exists m2. rewrite Em. auto.
        -- apply task_iff. exists k, (rep j c_sp ++ m1), j, m1, t, m'. split; [exact H|]. split; [reflexivity|]. split; [exact Lj|]. split; [exact Ht|]. split; [exact He|].
           repeat f_equal. rewrite ?app_length, ?rep_length. unfold char, str in *. lia.
    + intros [X|(N & [X|[_ []]])].
      * apply empty_iff in X as (k & m1 & w & m & H & -> & Hw & He & E). injection E as ->. exists k, (len s - len (w ++ m)), (w ++ m). split; [auto|]. left. exists w. split; [eauto|reflexivity].
      * apply task_iff in X as (k & m0 & j & m1 & t & m & H & -> & Lj & Ht & He & E). injection E as ->. exists k, (len s - len (rep j c_sp ++ m1)), (rep j c_sp ++ m1). split; [auto|]. right. split.
        -- intros (y & r' & w & (m2 & E & Hw & He') & _). apply N. eexists _, r'. apply empty_iff. exists k, (rep j c_sp ++ m1), w, m2. eauto 6.
        -- exists (rep j c_sp), j, m1. split.
           ++ split; [|rewrite app_length, rep_length; unfold char, str in *; lia]. exists j. split; [reflexivity|]. split; [reflexivity|]. split; [exact Lj|]. intros _. eapply task_not_space, Ht.
           ++ exists t, r. split; [eauto|auto].
Qed.
Lemma text_iff : forall s x r, item_text s x r <-> exists k j m0 m1 t m v, up3_marker s k m0 /\ m0 = rep j c_sp ++ m1 /\ 1 <= j <= 4 /\ (j < 4 -> ~ begins_with c_sp m1) /\
   ((exists x, t = Some x /\ task_at m1 x (c_sp :: m)) \/ (t = None /\ m = m1 /\ forall x m', ~ task_at m1 x (c_sp :: m'))) /\ plain_line m v r /\ x = (k, len s - len m1, t, v).
Proof.
  intros s x r. split.
  - intro H. inversion H as [i s' k j m1 t m v r' Li Hm Lj Nj Ht Hp]; subst. exists k, j, (rep j c_sp ++ m1), m1, t, m, v. split; [exists i, s'; auto|].
    split; [reflexivity|]. split; [exact Lj|]. split; [exact Nj|]. split; [exact Ht|]. split; [exact Hp|].
    apply marker_len in Hm. rewrite !app_length, !rep_length in *. do 3 f_equal. unfold char, str in *. lia.
  - intros (k & j & m0 & m1 & t & m & v & (i & s' & -> & Li & Hm) & -> & Lj & Nj & Ht & Hp & ->). pose proof (marker_len _ _ _ Hm) as L. rewrite !app_length, !rep_length in *.
    replace (i + len s' - len m1) with (i + (len s' - len m1)) by (unfold char, str in *; lia). econstructor; eassumption.
Qed.
Lemma exact_text_start : exact (pair_ p_marker_spaces (line_terminated not_eof_or_eol0)) item_text.
Proof.
  unfold p_marker_spaces. eapply exact_iff.
  - eapply exact_pair; [|apply exact_plain_line]. eapply exact_bind_pair; [apply exact_consumed|].
    + change (delimited up_to_3_spaces p_list_marker (many_m_n 1 4 (chr " "))) with (preceded up_to_3_spaces (terminated p_list_marker (many_m_n 1 4 (chr " ")))).
      eapply exact_up3; [eapply exact_terminated; [apply exact_marker|apply exact_spaces; lia]|]. intros t a r (m & b & H & _). exact (marker_not_space _ _ _ H).
    + intros k n. cbv beta iota. eapply exact_bind; [eapply exact_opt, exact_terminated; [apply exact_task|ex]|]. intro t. apply exact_ret.
  - intros s x r. rewrite text_iff. cbv beta. cbn [fst snd]. destruct x as [[[k n] t] v]. cbn [fst snd]. split.
    + intros (m & (k' & n' & m1 & ((i & s' & -> & Li & m0 & sp & Hm & j & -> & -> & Lj & Nj) & ->) & t' & m' & Ht & E & ->) & Hp). injection E as -> -> ->.
      exists k', j, (rep j c_sp ++ m1), m1, t', m', v. split; [exists i, s'; auto|]. split; [reflexivity|]. split; [exact Lj|]. split; [exact Nj|]. split; [|auto].
      destruct t' as [x|].
      * left. destruct Ht as (m2 & c & Ht & -> & ->). eauto.
      * right. destruct Ht as (-> & N). split; [reflexivity|]. split; [reflexivity|]. intros x m2 X. apply N. exists x, m2, (c_sp :: m2), c_sp. auto.
    + intros (k' & j & m0 & m1 & t' & m & v' & (i & s' & -> & Li & Hm) & -> & Lj & Nj & Ht & Hp & E). injection E as -> -> -> ->. exists m. split; [|exact Hp].
      exists k', (len (rep i c_sp ++ s') - len m1), m1. split.
      * split; [|reflexivity]. exists i, s'. split; [reflexivity|]. split; [exact Li|]. exists (rep j c_sp ++ m1), (rep j c_sp). split; [exact Hm|]. exists j. auto.
      * exists t', m. split; [|auto]. destruct Ht as [(x & -> & Ht)|(-> & -> & N)].
        -- exists (c_sp :: m), c_sp. auto.
        -- split; [reflexivity|]. intros (x & m' & m2 & c & X & -> & ->). exact (N _ _ X).
Qed.
Lemma exact_item_start : exact p_marker_with_span item_start.
Proof.
  unfold p_marker_with_span. eapply exact_iff; [change_alt; eapply exact_or; [eapply exact_pmap, exact_newline_start|unfold alt; apply exact_text_start]|].
  intros s x r. cbv beta. unfold item_start. cbn [first_of]. split.
  - intros [(y & H & ->)|(N & H)].
    + destruct H as [H|(N & [H|[_ []]])]; [now left|]. right. split; [exact N|]. now left.
    + right. split; [|right; split; [|now left]].
      * intros (q & r' & X). apply N. pose proof X as X'. apply empty_iff in X' as (k & m1 & w & m & _ & _ & _ & _ & ->). eexists (_, []), r', _. split; [left; exact X|reflexivity].
      * intros (q & r' & X). apply N. pose proof X as X'. apply task_iff in X' as (k & m0 & j & m1 & t & m & _ & _ & _ & _ & _ & ->).
        assert (D : (exists q r', item_empty s q r') \/ ~ exists q r', item_empty s q r').
        { destruct (p_marker_newline s) as [r2 y| |] eqn:E; [| |now elim (proj1 exact_newline_start s)].
          - apply (exact_inv _ _ exact_newline_start) in E as [E|[E _]]; [left; eauto|now right].
          - right. intros (q & r2 & Y). pose proof Y as Y'. apply empty_iff in Y' as (k' & m1' & w' & m' & _ & _ & _ & _ & ->).
            assert (Z : p_marker_newline s = Ok r2 (k', len s - len m1' + 1, None)) by (apply (exact_ok _ _ exact_newline_start); now left). congruence. }
        destruct D as [(q & r2 & Y)|D].
        -- pose proof Y as Y'. apply empty_iff in Y' as (k' & m1' & w' & m' & _ & _ & _ & _ & ->). eexists (_, []), r2, _. split; [left; exact Y|reflexivity].
        -- eexists (_, []), r', _. split; [right; split; [exact D|left; exact X]|reflexivity].
  - intros [X|(N1 & [X|(N2 & [X|[_ []]])])].
    + left. pose proof X as X'. apply empty_iff in X' as (k & m1 & w & m & _ & _ & _ & _ & ->). eexists. split; [left; exact X|reflexivity].
    + left. pose proof X as X'. apply task_iff in X' as (k & m0 & j & m1 & t & m & _ & _ & _ & _ & _ & ->). eexists. split; [right; split; [exact N1|left; exact X]|reflexivity].
    + right. split; [|exact X]. intros (q & r' & y & [Y|(_ & [Y|[_ []]])] & ->); [apply N1|apply N2]; now exists (y, []), r'.
Qed.
