(** Exactness of list items and HTML blocks. *)
From Coq Require Import String Lia.
From Verif Require Import SpecParser Nom NomFacts ParserLeaf ParserTotal ParserCode SpecInline SyntaxFacts SyntaxInline SyntaxInline2 ParserBlock ParserBlockFacts SpecBlock SyntaxLines SyntaxBlock.
Import ListNotations.
Open Scope list_scope.
Local Notation len := (@List.length _).

(** ** Lines of an item *)
Lemma repeated_map : forall A B (f : A -> B) (R : rule A) (Q : rule B), (forall s v r, Q s v r <-> exists a, R s a r /\ v = f a) ->
  forall s l r, repeated Q s l r <-> exists l', repeated R s l' r /\ l = map f l'.
Proof.
  intros A B f R Q E s l r. split.
  - induction 1 as [s N|s v m l r X Y (l' & IH & ->)].
    + exists []. split; [|reflexivity]. apply rep_stop. intros (a & r & X). apply N. exists (f a), r. apply E. eauto.
    + apply E in X as (a & X & ->). exists (a :: l'). split; [econstructor; eassumption|reflexivity].
  - intros (l' & H & ->). induction H as [s N|s a m l r X Y IH].
    + apply rep_stop. intros (v & r & X). apply E in X as (a & X & _). apply N. now exists a, r.
    + cbn [map]. econstructor; [apply E; eauto|exact IH].
Qed.
Lemma repeated_nil : forall A (R : rule A) s r, repeated R s [] r -> ~ applies R s /\ r = s.
Proof. intros A R s r H. inversion H; subst. auto. Qed.
Lemma blanks_concat : forall s bl m, repeated blank_line s bl m -> s = concat bl ++ m.
Proof. induction 1 as [s N|s v m l r [E _] Y IH]; [reflexivity|]. cbn [concat]. now rewrite <- app_assoc, <- IH. Qed.
Lemma exact_other : forall k n, exact (p_unit (pair_ (verify (recognize (many_m_n 0 n (chr " "))) (fun indent => List.length indent <? n)) (p_marker_of_kind k)))
  (fun s _ r => exists j m k', s = rep j c_sp ++ m /\ j < n /\ marker_at m k' r /\ same_style k k').
Proof.
  intros k n. eapply exact_iff; [ex; [apply exact_strip|apply exact_marker_kind]|]. intros s x r. cbv beta. split.
  - intros ([v k'] & m & ((-> & a & j & -> & E & L & N) & Lt) & H). cbn [fst snd] in *. apply app_inv_tail in E as ->. rewrite rep_length in Lt. apply Nat.ltb_lt in Lt. eauto 8.
  - intros (j & m & k' & -> & L & H & E). exists (rep j c_sp, k'), m. cbn [fst snd]. split; [|auto]. split; [|rewrite rep_length; now apply Nat.ltb_lt].
    split; [reflexivity|]. exists (rep j c_sp), j. split; [reflexivity|]. split; [reflexivity|]. split; [lia|]. intros _ [t ->]. exact (marker_not_space _ _ _ H).
Qed.
Definition rest_rel (k : list_kind) (n : nat) : rule (list str) := fun s l r =>
  ~ applies r_break_line s /\ ~ other_item k n s /\
  first_of [ (fun s l r => exists m v, strip n s m /\ text_line m v r /\ l = [v]);
             (fun s l r => exists bl m v', bl <> [] /\ repeated blank_line s bl (rep n c_sp ++ m) /\ text_line m v' r /\ l = [concat bl; v']) ] s l r.
Lemma text_line_rest : forall s v r, text_line s v r <-> exists m, rest_text s v m /\ line_end m r.
Proof.
  intros s v r. unfold text_line, rest_text. split.
  - intros (m & -> & H1 & H2 & L & H3). exists m. split; [|exact L]. split; [reflexivity|]. eauto 6.
  - intros (m & (-> & H1 & H2 & _ & H3) & L). exists m. auto.
Qed.
Lemma rest_text_end : forall s v m, rest_text s v m -> exists r, line_end m r.
Proof. intros s v m (_ & _ & _ & H & _). exact H. Qed.
Lemma exact_blank_lines : exact (recognize (many1 (line_terminated space0))) (fun s v m => exists bl, bl <> [] /\ repeated blank_line s bl m /\ v = concat bl).
Proof.
  eapply exact_iff; [eapply exact_recognize; [eapply exact_repeated1; [apply exact_blank_space|apply eats_blank_space]|unfold many1, line_terminated; eats]|]. intros s v m. cbv beta. split.
  - intros (E & l & N & H). destruct (proj1 (blanks_repeated _ _) (ex_intro _ l H)) as [bl B]. exists bl. split; [|split; [exact B|]].
    + intros ->. assert (A1 : applies blank_line s) by (inversion H as [|? w q ? ? X Y]; subst; [now elim N|]; apply blank_line_ex; exists w, q; exact X).
      now apply repeated_nil in B as [B _].
    + apply blanks_concat in B. rewrite E in B. now apply app_inv_tail in B.
  - intros (bl & N & B & ->). split; [now apply blanks_concat|]. destruct (proj2 (blanks_repeated _ _) (ex_intro _ bl B)) as [l H]. exists l. split; [|exact H].
    intros ->. assert (A1 : applies blank_line s) by (inversion B as [|? w q ? ? X Y]; subst; [now elim N|]; exists w, q; exact X).
    apply blank_line_ex in A1. now apply repeated_nil in H as [H _].
Qed.
Lemma exact_sp_n : forall n, exact (many_m_n n n (chr " ")) (fun s l r => l = rep n c_sp /\ s = rep n c_sp ++ r).
Proof.
  intro n. eapply exact_iff; [apply exact_spaces; lia|]. intros s l r. cbv beta. split.
  - intros (j & -> & -> & L & _). assert (j = n) as -> by lia. auto.
  - intros (-> & ->). exists n. split; [reflexivity|]. split; [reflexivity|]. split; lia.
Qed.
Lemma exact_rest_line : forall k n, exact (p_rest_line k n) (rest_rel k n).
Proof.
  intros k n. set (q := line_terminated (preceded
         (peek (not_ (alt [ p_thematic_break;
              p_unit (pair_ (verify (recognize (many_m_n 0 n (chr " "))) (fun indent => List.length indent <? n)) (p_marker_of_kind k)) ])))
         (alt [ preceded (many_m_n 0 n (chr " ")) (pmap (fun v => [v]) not_eof_or_eol1);
                pmap (fun '(newlines, content) => [newlines; content])
                  (pair_ (recognize (many1 (line_terminated space0))) (preceded (many_m_n n n (chr " ")) not_eof_or_eol1)) ]))).
  assert (Q : exact q (rest_rel k n)).
  { unfold q. eapply exact_iff.
    - eapply exact_lt, exact_preceded; [eapply exact_peek, exact_not; change_alt; eapply exact_or; [apply exact_thematic|unfold alt; apply exact_other]|].
      change_alt. eapply exact_or; [apply exact_strip_then, exact_pmap, exact_rest_text|]. unfold alt. eapply exact_pmap, exact_pair; [apply exact_blank_lines|eapply exact_preceded; [apply exact_sp_n|apply exact_rest_text]].
    - intros s l r. cbv beta. unfold rest_rel. cbn [first_of]. split.
      + intros (m & (u & s' & (-> & r1 & _ & N) & H) & L).
        split; [intros (h & r' & X); apply N; inversion X; subst; exists tt, r'; left; exact X|].
        split.
        { intros (j & m' & k' & r' & E1 & E2 & E3 & E4). apply N. destruct (exact_dec _ _ exact_thematic s') as [(u' & r2 & X)|X]; [exists u', r2; now left|].
          exists tt, r'. right. split; [exact X|]. exists j, m', k'. auto. }
        destruct H as [(m1 & S1 & v & V & ->)|(N1 & [nl v] & (m1 & (bl & Nb & B & E) & w & m2 & (-> & ->) & V) & ->)].
        * left. exists m1, v. split; [exact S1|]. split; [apply text_line_rest; eauto|reflexivity].
        * cbn [fst snd] in *. subst nl. right. split.
          -- intros (l & r2 & m3 & v3 & S3 & V3 & ->). apply N1. apply text_line_rest in V3 as (m4 & V4 & _). eauto 8.
          -- left. exists bl, m2, v. split; [exact Nb|]. split; [exact B|]. split; [apply text_line_rest; eauto|reflexivity].
      + intros (N1 & N2 & H). destruct H as [(m1 & v & S1 & V & ->)|(Nf & [(bl & m & v' & Nb & B & V & ->)|[_ []]])].
        * apply text_line_rest in V as (m & V & L). exists m. split; [|exact L]. exists tt, s. split.
          -- split; [reflexivity|]. exists s. split; [reflexivity|]. intros (u & r' & [X|(_ & j & m' & k' & E & X)]); [apply N1; now exists HBreak, r'|apply N2]. exists j, m', k', r'. tauto.
          -- left. exists m1. split; [exact S1|]. exists v. auto.
        * apply text_line_rest in V as (m1 & V & L). exists m1. split; [|exact L]. exists tt, s. split.
          -- split; [reflexivity|]. exists s. split; [reflexivity|]. intros (u & r' & [X|(_ & j & m' & k' & E & X)]); [apply N1; now exists HBreak, r'|apply N2]. exists j, m', k', r'. tauto.
          -- right. split.
             ++ intros (l & r2 & m3 & S3 & v3 & V3 & ->). apply Nf. destruct (rest_text_end _ _ _ V3) as [r3 L3]. exists [v3], r3, m3, v3. split; [exact S3|]. split; [apply text_line_rest; eauto|reflexivity].
             ++ exists (concat bl, v'). split; [|reflexivity]. cbn [fst snd]. exists (rep n c_sp ++ m). split; [eauto|]. exists (rep n c_sp), m. auto. }
  split.
  - intros [|c s]; [discriminate|]. apply (proj1 Q (c :: s)).
  - intros [|c s] r l; [|apply (proj2 Q (c :: s))]. split; [discriminate|]. intros (_ & _ & H). exfalso. cbn [first_of] in H.
    destruct H as [(m & v & (j & E & _) & (m' & E' & Nv & _) & _)|(_ & [(bl & m & v' & Nb & B & (m' & E' & Nv & _) & _)|[_ []]])].
    + symmetry in E. apply app_eq_nil in E as [_ ->]. symmetry in E'. apply app_eq_nil in E' as [-> _]. now elim Nv.
    + apply blanks_concat in B. symmetry in B. apply app_eq_nil in B as [_ B]. apply app_eq_nil in B as [_ ->]. symmetry in E'. apply app_eq_nil in E' as [-> _]. now elim Nv.
Qed.
Lemma item_line_rel : forall k n s v r, item_line k n s v r <-> exists l, rest_rel k n s l r /\ v = concat l.
Proof.
  intros k n s v r. unfold item_line, rest_rel. cbn [first_of]. split.
  - intros (H1 & H2 & [(m & S1 & V)|(Nf & [(bl & m & v' & Nb & B & V & ->)|[_ []]])]).
    + exists [v]. split; [|cbn; now rewrite app_nil_r]. split; [exact H1|]. split; [exact H2|]. left. eauto.
    + exists [concat bl; v']. split; [|cbn; now rewrite app_nil_r]. split; [exact H1|]. split; [exact H2|]. right. split; [|left; eauto 8].
      intros (l & r2 & m3 & v3 & S3 & V3 & ->). apply Nf. exists v3, r2, m3. auto.
  - intros (l & (H1 & H2 & [(m & v' & S1 & V & ->)|(Nf & [(bl & m & v' & Nb & B & V & ->)|[_ []]])]) & ->); (split; [exact H1|]); (split; [exact H2|]); cbn [concat]; rewrite ?app_nil_r.
    + left. eauto.
    + right. split; [|left; eauto 8]. intros (v3 & r2 & m3 & S3 & V3). apply Nf. exists [v3], r2, m3, v3. auto.
Qed.
Lemma eats_rest_line : forall k n, eats true (p_rest_line k n).
Proof.
  intros k n s r a H. apply (exact_inv _ _ (exact_rest_line k n)) in H. destruct H as (_ & _ & H). cbn [first_of] in H.
  assert (T : forall m v r, text_line m v r -> exists e, m = e ++ r /\ e <> []).
  { intros m v r' (q & -> & Nv & _ & L & _). apply line_end_iff in L as [(e & _ & ->)|[-> ->]]; [exists (v ++ e)|exists v]; (split; [now rewrite ?app_assoc, ?app_nil_r|]); [|exact Nv].
    intro E. apply app_eq_nil in E as [-> _]. now elim Nv. }
  destruct H as [(m & v & (j & -> & _) & V & _)|(_ & [(bl & m & v' & Nb & B & V & _)|[_ []]])]; apply T in V as (e & -> & Ne).
  - exists (rep j c_sp ++ e). split; [now rewrite app_assoc|]. intros _ E. apply app_eq_nil in E as [_ ->]. now elim Ne.
  - apply blanks_concat in B. exists (concat bl ++ rep n c_sp ++ e). split; [now rewrite B, <- !app_assoc|]. intros _ E. apply app_eq_nil in E as [_ E]. apply app_eq_nil in E as [_ ->]. now elim Ne.
Qed.
Lemma exact_item_lines : exact p_list_item_lines (fun s x r => item_at s (fst (fst x), (snd (fst x), snd x)) r).
Proof.
  unfold p_list_item_lines. eapply exact_iff.
  - eapply (exact_bind_pair _ _ _ _ _ _ (fun x v s a r => exists ls m2, repeated (rest_rel (fst (fst x)) (snd (fst x))) s ls m2 /\
      a = (fst (fst x), snd x, lines_content v (map (@concat char) ls)) /\ r = m2)); [apply exact_item_start|]. intros [[k n] t] v. cbv beta iota. cbn [fst snd].
    eapply exact_bind; [eapply exact_repeated; [apply exact_rest_line|eapply eats_weaken, eats_rest_line]|]. intro ls. apply exact_ret.
  - intros s [[k t] c] r. cbv beta. cbn [fst snd]. split.
    + intros ([[k' n] t'] & v & m & H1 & ls & m2 & H2 & E & ->). injection E as -> -> ->. rewrite lines_content_join.
      econstructor; [exact H1|]. apply (repeated_map _ _ (@concat char) _ _ (item_line_rel k' n)). eauto.
    + intro H. inversion H as [s' k' n t' v m ls r' H1 H2]; subst. apply (repeated_map _ _ (@concat char) _ _ (item_line_rel k n)) in H2 as (l & H2 & ->).
      exists (k, n, t), v, m. split; [exact H1|]. exists l, r. split; [exact H2|]. split; [|reflexivity]. now rewrite lines_content_join.
Qed.
