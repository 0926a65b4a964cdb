(** How often closures are called: lower bounds. *)
From Coq Require Import String Lia.
From Verif Require Import SpecParser PropQuote LineFacts RoundRead ParserPlain ParserText ParserInlineFacts.
From Verif Require Export EffState.
Import ListNotations.
Open Scope list_scope.
Local Notation len := (@List.length _).

(** the default configuration, with a hook on texts that returns the text
    unchanged and counts its calls *)
Definition counting (entities : str -> option str) (punct : char -> bool) (upper : char -> str) : econfig nat :=
  {| e_allow_no_space_in_headings := false;
     e_html_entities := entities;
     eb_blockquote := EParse; eb_github_alert := EParse; eb_heading_v1 := EParse;
     eb_heading_v2 := EParse; eb_thematic_break := EParse; eb_list := EParse;
     eb_code_block := EParse; eb_html_block := EParse; eb_footnote_definition := EParse;
     eb_link_definition := EParse; eb_table := EParse; eb_paragraph := EParse;
     ei_autolink := EParse; ei_link := EParse; ei_footnote_reference := EParse;
     ei_reference_link := EParse; ei_hard_newline := EParse; ei_image := EParse;
     ei_code_span := EParse; ei_emphasis := EParse; ei_strikethrough := EParse;
     ei_text := EMap (fun t calls => (t, S calls));
     e_custom_block := None; e_custom_inline := None;
     e_punct_table := punct; e_upper_table := upper |}.

Definition calls {A} (p : eparser nat A) (s : str) (k : nat) : Prop := forall w, w + k <= snd (p s w).
Definition errs {A} (p : eparser nat A) (s : str) : Prop := forall w, fst (p s w) = Err.
Notation mono := (moves le).
Lemma calls_le : forall A (p : eparser nat A) s k k', k' <= k -> calls p s k -> calls p s k'.
Proof. intros A p s k k' L H w. specialize (H w). lia. Qed.
Lemma calls_0 : forall A (p : eparser nat A) s, mono p -> calls p s 0.
Proof. intros A p s H w. specialize (H s w). lia. Qed.
Lemma calls_bind : forall A B (p : eparser nat A) (f : A -> eparser nat B) s k, calls p s k -> (forall a, mono (f a)) -> calls (ebind p f) s k.
Proof.
  intros A B p f s k H Hf w. unfold ebind. specialize (H w). destruct (p s w) as [[r a| |] w']; cbn [snd] in *; try lia.
  specialize (Hf a r w'). lia.
Qed.
Lemma calls_lift : forall A B (p : parser A) (f : A -> eparser nat B) s r a k, p s = Ok r a -> calls (f a) r k -> calls (ebind (lift p) f) s k.
Proof. intros A B p f s r a k E H w. unfold ebind, lift. rewrite E. apply H. Qed.
Lemma calls_map : forall A B (f : A -> B) (p : eparser nat A) s k, calls p s k -> calls (emap f p) s k.
Proof. intros. apply calls_bind; [assumption|]. intro. apply mv_lift. intro; lia. Qed.
Lemma calls_nested : forall A (p : eparser nat A) c s k, calls p c k -> calls (enested p c) s k.
Proof. intros A p c s k H w. specialize (H w). unfold enested. destruct (p c w) as [[r a| |] w']; exact H. Qed.
Lemma calls_not : forall A (p : eparser nat A) s k, calls p s k -> calls (enot p) s k.
Proof. intros A p s k H w. specialize (H w). unfold enot. destruct (p s w) as [[r a| |] w']; exact H. Qed.
Lemma calls_peek : forall A (p : eparser nat A) s k, calls p s k -> calls (epeek p) s k.
Proof. intros A p s k H w. specialize (H w). unfold epeek. destruct (p s w) as [[r a| |] w']; exact H. Qed.
Lemma calls_recognize : forall A (p : eparser nat A) s k, calls p s k -> calls (erecognize p) s k.
Proof. intros A p s k H w. specialize (H w). unfold erecognize. destruct (p s w) as [[r a| |] w']; exact H. Qed.
Lemma calls_many1 : forall A (p : eparser nat A) s k, mono p -> calls p s k -> calls (emany1 p) s k.
Proof. intros. apply calls_bind; [assumption|]. intro. apply mv_map, mv_many0; try assumption; intros; lia. Qed.
Lemma calls_many0 : forall A (p : eparser nat A) s k, mono p -> calls p s k -> calls (emany0 p) s k.
Proof.
  intros A p s k M H w. unfold emany0. cbn [emany0_go]. specialize (H w). destruct (p s w) as [[r a| |] w']; cbn [snd] in *; try lia.
  destruct (_ =? _); cbn; [lia|]. assert (X : mono (fun s w => emany0_go (len s) p s w)).
  { clear -M. intros s w. generalize (len s) as n. intro n. revert s w. induction n as [|n IH]; intros s w; [cbn; lia|]. cbn [emany0_go]. pose proof (M s w) as Y.
    destruct (p s w) as [[r a| |] w']; cbn [snd] in *; try lia. destruct (_ =? _); cbn; [lia|]. specialize (IH r w'). destruct (emany0_go n p r w') as [[? ?| |] ?]; cbn in *; lia. }
  assert (Y : forall n, w' <= snd (emany0_go n p r w')).
  { intro n. clear -M. revert r w'. induction n as [|n IH]; intros s w; [cbn; lia|]. cbn [emany0_go]. pose proof (M s w) as Y.
    destruct (p s w) as [[r a| |] w']; cbn [snd] in *; try lia. destruct (_ =? _); cbn; [lia|]. specialize (IH r w'). destruct (emany0_go n p r w') as [[? ?| |] ?]; cbn in *; lia. }
  specialize (Y (len s)). destruct (emany0_go (len s) p r w') as [[? ?| |] ?]; cbn in *; lia.
Qed.
Lemma calls_sep0 : forall A B (sep : eparser nat B) (p : eparser nat A) s k, mono sep -> mono p -> calls p s k -> calls (eseparated_list0 sep p) s k.
Proof.
  intros A B sep p s k Ms M H w. unfold eseparated_list0. specialize (H w). destruct (p s w) as [[r a| |] w'] eqn:Q; cbn [snd] in *; try lia.
  pose proof (mv_map le Nat.le_refl Nat.le_trans _ _ (cons a) _ (mv_sep_go le Nat.le_refl Nat.le_trans _ _ sep p Ms M) r w') as X. lia.
Qed.
Lemma calls_or : forall A (p q : eparser nat A) s k k', calls p s k -> errs p s -> calls q s k' -> calls (eor_else p q) s (k + k').
Proof.
  intros A p q s k k' H He H' w. unfold eor_else. specialize (H w). specialize (He w). destruct (p s w) as [x w']. cbn in He, H. subst x. specialize (H' w'). lia.
Qed.
Lemma calls_or_l : forall A (p q : eparser nat A) s k, mono q -> calls p s k -> calls (eor_else p q) s k.
Proof.
  intros A p q s k M H w. unfold eor_else. specialize (H w). destruct (p s w) as [[r a| |] w']; cbn in *; try lia. specialize (M s w'). lia.
Qed.
Lemma calls_skip : forall A (p q : eparser nat A) s k, mono p -> errs p s -> calls q s k -> calls (eor_else p q) s k.
Proof. intros. change k with (0 + k). apply calls_or; auto. now apply calls_0. Qed.
Lemma errs_sim : forall A (R : A -> A -> Prop) (p : eparser nat A) q s, esim R p q -> q s = Err -> errs p s.
Proof. intros A R p q s H E w. specialize (H s w). rewrite E in H. destruct (fst (p s w)); [destruct H|reflexivity|destruct H]. Qed.
Lemma calls_then : forall A B (R : A -> A -> Prop) (p : eparser nat A) q (f : A -> eparser nat B) s r b k, esim R p q -> mono p -> q s = Ok r b ->
  (forall a, R a b -> calls (f a) r k) -> calls (ebind p f) s k.
Proof.
  intros A B R p q f s r b k H M E Hf w. specialize (H s w). specialize (M s w). unfold ebind. rewrite E in H. destruct (p s w) as [[r' a| |] w']; cbn in *; try contradiction.
  destruct H as [-> H]. specialize (Hf a H w'). lia.
Qed.

Section Cost.
  Variables (entities : str -> option str) (punct : char -> bool) (upper : char -> str).
  Notation E := (counting entities punct upper).
  Notation cfg := (default_config entities punct upper).
  Notation Q := (@eqv false _).
  Lemma E_moves : config_moves le E.
  Proof. unfold config_moves. cbn. repeat split; auto. Qed.
  Lemma m_inl : forall n, mono (einline_many1_f E n).
  Proof. apply mv_inlines_f; [exact Nat.le_refl|exact Nat.le_trans|exact E_moves]. Qed.
  Lemma m_blk : forall n, mono (eblock_f E n).
  Proof. apply mv_block_f; [exact Nat.le_refl|exact Nat.le_trans|exact E_moves]. Qed.
  Ltac side := try reflexivity; cbn; repeat split; auto.
  Lemma s_inl : forall n, esim Q (einline_many1_f E n) (inline_many1_f cfg n).
  Proof. intro n. eapply sim_inlines_f; side. Qed.
  Lemma counted_same : forall s w, fst (eparse_markdown E s w) = parse_markdown cfg s.
  Proof.
    intros s w. assert (X : rrel (@eqv true document) (fst (eparse_markdown E s w)) (parse_markdown cfg s)) by (apply sim_parse; try reflexivity; cbn; repeat split; auto).
    destruct (fst (eparse_markdown E s w)), (parse_markdown cfg s); cbn in X; try contradiction; try reflexivity. destruct X as [-> ->]. reflexivity.
  Qed.
  Lemma s_inl1 : esim Q (einline_many1 E) (inline_many1 cfg).
  Proof. eapply sim_inlines1; side. Qed.
  Lemma s_blk : forall n, esim Q (eblock_f E n) (block_f cfg n).
  Proof. intro n. eapply sim_block_f; side. Qed.

  Lemma errs_lift : forall A (p : parser A) s, p s = Err -> errs (lift p) s. Proof. intros A p s H w. exact H. Qed.
  Lemma errs_map : forall A B (f : A -> B) (p : eparser nat A) s, errs p s -> errs (emap f p) s.
  Proof. intros A B f p s H w. specialize (H w). unfold emap, ebind. destruct (p s w) as [[? ?| |] ?]; cbn in *; congruence. Qed.
  Ltac opened := cbn [ealt econditional_block econditional_inline econditional econditional_unit econditional_block_vec
     eb_blockquote eb_github_alert eb_heading_v1 eb_heading_v2 eb_thematic_break eb_list eb_code_block eb_html_block eb_footnote_definition
     eb_link_definition eb_table eb_paragraph ei_autolink ei_link ei_footnote_reference ei_reference_link ei_hard_newline ei_image
     ei_code_span ei_emphasis ei_strikethrough ei_text counting].
  Ltac mono1 := match goal with
    | |- moves _ (lift _) => apply mv_lift
    | |- moves _ (eret _) => apply mv_lift
    | |- moves _ efail => apply mv_lift
    | |- moves _ (eline_terminated _) => apply mv_line
    | |- moves _ (ep_unit _) => apply mv_unit
    | |- moves _ (ealt _) => apply mv_alt; [..|repeat apply Forall_cons; try apply Forall_nil]
    | |- moves _ (eor_else _ _) => apply mv_or
    | |- moves _ (emany0 _) => apply mv_many0
    | |- moves _ (emany1 _) => apply mv_many1
    | |- moves _ (eseparated_list0 _ _) => apply mv_sep0
    | |- moves _ (eseparated_list1 _ _) => apply mv_sep1
    | |- moves _ (enot _) => apply mv_not
    | |- moves _ (epeek _) => apply mv_peek
    | |- moves _ (erecognize _) => apply mv_recognize
    | |- moves _ (enested _ _) => apply mv_nested
    | |- moves _ (emap _ _) => apply mv_map
    | |- moves _ (erun _ _) => apply mv_run
    | |- moves _ (evalue _ _) => apply mv_value
    | |- moves _ (edelimited _ _ _) => apply mv_delimited
    | |- moves _ (epreceded _ _) => apply mv_preceded
    | |- moves _ (eterminated _ _) => apply mv_terminated
    | |- moves _ (ebind _ _) => apply mv_bind; [..|intro]
    | |- moves _ (ep_link_label _) => apply mv_label
    | |- moves _ (ep_inline_link _) => apply mv_link
    | |- moves _ (ep_reference_link _) => apply mv_ref
    | |- moves _ (ep_emphasis _ _) => apply mv_emphasis
    | |- moves _ (ep_strikethrough _) => apply mv_strike
    | |- moves _ (ep_custom_inline _) => apply mv_custom_inline
    | |- moves _ (ep_not_a_text _ _) => apply mv_not_text
    | |- moves _ (ep_text_run _ _) => apply mv_text_run
    | |- moves _ (ep_text _ _) => apply mv_text
    | |- moves _ (ep_inline _ _) => apply mv_inline
    | |- moves _ (einline_many1 _) => apply mv_inlines1
    | |- moves _ (einline_many0 _) => apply mv_inlines0
    | |- moves _ (einline_many1_f _ _) => apply mv_inlines_f
    | |- moves _ (ep_heading_v1 _) => apply mv_heading
    | |- moves _ (ep_link_definition _) => apply mv_definition
    | |- moves _ (ep_table _) => apply mv_table
    | |- moves _ (ep_custom_block _) => apply mv_custom_block
    | |- moves _ (ep_blockquote _) => apply mv_quote
    | |- moves _ (ep_github_alert _ _) => apply mv_alert
    | |- moves _ (ep_list_item _) => apply mv_item
    | |- moves _ (ep_list _) => apply mv_list
    | |- moves _ (ep_footnote_definition _) => apply mv_footnote
    | |- moves _ (ep_is_paragraph_line_start _ _) => apply mv_start
    | |- moves _ (ep_paragraph _ _ _) => apply mv_paragraph
    | |- moves _ (ep_heading_v2_or_paragraph _ _) => apply mv_heading2
    end.
  Ltac monos := repeat (first [assumption | exact Nat.le_refl | exact Nat.le_trans | exact E_moves | (intros; cbn; lia) | mono1]).
  Ltac sims := first [eapply sim_heading | eapply sim_heading2 | eapply sim_alert | eapply sim_link | eapply sim_ref | eapply sim_emphasis | eapply sim_strike | eapply sim_definition | eapply sim_label]; side; fail.
  (** *** Nested quotes *)
  Fixpoint quotes (n : nat) : str := match n with O => lit "a" | S n => ch ">" :: quotes n end.
  Fixpoint quotes_block (n : nat) : block := match n with O => BParagraph [IText (lit "a")] | S n => BBlockQuote [quotes_block n] end.
  Lemma quotes_in : forall n c, In c (quotes n) -> c = ch ">" \/ c = ch "a".
  Proof. induction n as [|n IH]; cbn; intros c H; [destruct H as [<-|[]]; now right|]. destruct H as [<-|H]; auto. Qed.
  Lemma one_line : forall m s, ~ In 10%N s -> after_newlines m s = s.
  Proof.
    induction s as [|c s IH]; intro X; [reflexivity|]. cbn. destruct (N.eqb_spec c 10) as [->|]; [elim X; now left|]. f_equal. apply IH. intro. apply X. now right.
  Qed.
  Lemma quotes_quote : forall n, quotes (S n) = quote (lit ">") (quotes n).
  Proof.
    intro n. unfold quote. rewrite one_line; [reflexivity|]. intro H; apply quotes_in in H; destruct H; discriminate.
  Qed.
  Lemma quotes_len : forall n, len (quotes n) = S n.
  Proof. induction n as [|n IH]; [reflexivity|]. cbn [quotes List.length]. now rewrite IH. Qed.
  Lemma quotes_cr : forall n, ~ In 13%N (quotes n).
  Proof. intros n H. apply quotes_in in H. destruct H; discriminate. Qed.
  Lemma quote_calls : forall n f k, calls (eblock_f E f) (quotes n) k -> calls (ep_blockquote (eblock_f E f)) (quotes (S n)) k.
  Proof.
    intros n f k H. unfold ep_blockquote. eapply calls_lift; [rewrite quotes_quote; apply mark_quote_lines, quotes_cr|].
    rewrite split_join. apply calls_map, calls_nested, calls_many1; [apply m_blk|exact H].
  Qed.

  Lemma quotes_many1 : forall n f, block_f cfg (S f) (quotes n) = Ok [] [quotes_block n] ->
    exists r l, many1 (block_f cfg (S f)) (quotes n) = Ok r l /\ concat l = [quotes_block n].
  Proof.
    intros n f H. exists [], [[quotes_block n]]. split; [|reflexivity]. unfold many1, bind. rewrite H. reflexivity.
  Qed.
  Lemma quotes_noalert : forall n l name, PropQuote.first_line (quotes n) l -> to_uppercase cfg (trim l) <> lit "[!" ++ name ++ lit "]".
  Proof.
    intros n l name [H1 H2]. assert (X : l = quotes n).
    { destruct H2 as [<-|(r & H2)]; [reflexivity|]. exfalso. assert (In 10%N (quotes n)) as J by (rewrite H2; apply in_or_app; right; now left). apply quotes_in in J. destruct J; discriminate. }
    subst l. destruct n as [|n].
    - discriminate.
    - cbn [quotes]. intro X. cbn in X. destruct (trim_end (quotes n)); discriminate X.
  Qed.
  Lemma quotes_parse : forall n f, n <= f -> block_f cfg (S f) (quotes n) = Ok [] [quotes_block n].
  Proof.
    induction n as [|n IH]; intros f L; [reflexivity|]. destruct f as [|f]; [lia|].
    change (block_f cfg (S (S f))) with (p_block cfg (block_f cfg (S f))). rewrite quotes_quote. cbn [quotes_block].
    apply q_block; [reflexivity|apply quotes_cr|apply quotes_many1, IH; lia|]. right. intros l name. apply quotes_noalert.
  Qed.
  Lemma quotes_calls : forall n f, n <= f -> calls (eblock_f E (S f)) (quotes n) (2 ^ n).
  Proof.
    induction n as [|n IH]; intros f L.
    { intro w. assert (X : snd (eblock_f E (S f) (quotes 0) w) = S w) by (vm_compute; reflexivity). rewrite X. cbn [Nat.pow]. lia. }
    destruct f as [|f]; [lia|]. assert (Lf : n <= f) by lia. specialize (IH f Lf).
    pose proof (quotes_parse n f Lf) as P. pose proof (quotes_many1 n f P) as P1.
    change (eblock_f E (S (S f))) with (ep_block E (eblock_f E (S f))).
    unfold ep_block, epreceded. eapply calls_lift.
    { apply many_empty0. exists 0, (ch ">"), (quotes n). split; [reflexivity|repeat split; discriminate]. }
    change (ch ">" :: quotes n) with (quotes (S n)).
    pose proof (m_blk (S f)) as Mr. pose proof (s_blk (S f)) as Sr.
    assert (Hd : quotes (S n) = rep 0 c_sp ++ ch ">" :: quotes n) by reflexivity.
    pose proof gt_inked as Hi. opened.
    apply calls_skip; [monos|apply errs_map, errs_lift, pmap_e; rewrite Hd; apply code_block_e; [lia|exact Hi|discriminate|discriminate]|].
    apply calls_skip; [monos|apply errs_map, errs_map, (errs_sim _ Q _ (p_heading_v1 cfg)); [sims|]; rewrite Hd; apply heading_e; [lia|left; discriminate]|].
    replace (2 ^ S n) with (2 ^ n + 2 ^ n) by (cbn [Nat.pow]; lia). apply calls_or.
    - apply calls_map. unfold ep_heading_v2_or_paragraph. apply calls_bind; [|intro; monos]. unfold ep_paragraph. eapply calls_lift; [reflexivity|].
      apply calls_bind; [|intro; monos]. unfold eline_terminated, eterminated. apply calls_bind; [|intro; monos]. apply calls_sep0; [monos|monos|].
      apply calls_bind; [|intro; monos]. unfold ep_is_paragraph_line_start. apply calls_peek, calls_not. opened.
      apply calls_skip; [monos|apply errs_map, (errs_sim _ Q _ (p_heading_v1 cfg)); [sims|]; rewrite Hd; apply heading_e; [lia|left; discriminate]|].
      apply calls_skip; [monos|apply errs_lift, pmap_e; rewrite Hd; apply level_e; [lia|exact Hi|discriminate|discriminate]|].
      apply calls_skip; [monos|apply errs_lift; rewrite Hd; apply thematic_e; [lia|exact Hi|discriminate|discriminate|discriminate]|].
      apply calls_or_l; [monos|]. apply calls_map. now apply quote_calls.
    - apply errs_map, (errs_sim _ Q _ (p_heading_v2_or_paragraph cfg (block_f cfg (S f)))); [sims|]. rewrite quotes_quote. apply q_paragraph with (bs := [quotes_block n]); [reflexivity|apply quotes_cr|exact P1].
    - apply calls_skip; [monos|eapply errs_map, errs_lift, pmap_e; rewrite Hd; apply thematic_e; [lia|exact Hi|discriminate|discriminate|discriminate]|].
      apply calls_skip; [monos|apply (errs_sim _ Q _ (p_github_alert cfg (block_f cfg (S f)))); [sims|]; rewrite quotes_quote; eapply q_alert; [apply quotes_cr|split; [|left; reflexivity]|]|].
      + intro J; apply quotes_in in J; destruct J; discriminate.
      + intro name. apply (quotes_noalert n). split; [|left; reflexivity]. intro J; apply quotes_in in J; destruct J; discriminate.
      + apply calls_or_l; [monos|]. apply calls_map, calls_map. now apply quote_calls.
  Qed.

  (** *** Nested brackets *)
  Notation br n := (rep n (ch "[")).
  Lemma label_br : forall n, S n < 1000 -> p_label_chars (br (S n)) = Ok [] (br (S n)).
  Proof.
    intros n L. unfold p_label_chars, verify, bind.
    assert (M : many1 (preceded (peek (not_ (chr "]"))) (alt [value (ch "]") (tag (lit "\]")); anychar])) (br (S n)) = Ok [] (br (S n))).
    { assert (X : forall t, preceded (peek (not_ (chr "]"))) (alt [value (ch "]") (tag (lit "\]")); anychar]) (ch "[" :: t) = Ok t (ch "[")) by reflexivity.
      unfold many1, bind. cbn [rep repeat]. rewrite X. unfold pmap, bind. pose proof (many0_steps _ _ (fun c => c) (br n) [] (fun c t I => eq_trans (f_equal _ (f_equal2 cons (repeat_spec _ _ _ I) eq_refl)) (eq_trans (X t) (f_equal (Ok t) (eq_sym (repeat_spec _ _ _ I))))) eq_refl) as Y.
      rewrite app_nil_r, map_id in Y. unfold rep in *. now rewrite Y. }
    rewrite M. unfold label_ok. replace (len (br (S n)) <? 1000) with true by (symmetry; apply Nat.ltb_lt; unfold rep; rewrite repeat_length; exact L). reflexivity.
  Qed.
  Lemma foot_err : forall n, p_footnote_reference (br (S n)) = Err. Proof. intros [|n]; reflexivity. Qed.
  Section Pure.
    Variables (r : parser (list inline)) (n : nat).
    Hypothesis Hn : n < 1000.
    Hypothesis Hr : r (br n) <> Oof.
    Lemma label_err : p_link_label r (br (S n)) = Err.
    Proof.
      unfold p_link_label, delimited, preceded, terminated. unfold bind. change (br (S n)) with (ch "[" :: br n). change (tag (lit "[") (ch "[" :: ?t)) with (Ok t (lit "[")). cbv iota beta.
      destruct n as [|m] eqn:En; [reflexivity|]. rewrite label_br by exact Hn. unfold nested. destruct (r (br (S m))) eqn:X; [reflexivity|reflexivity|congruence].
    Qed.
    Lemma link_err : p_inline_link r (br (S n)) = Err.
    Proof. unfold p_inline_link. apply bind_e, label_err. Qed.
    Lemma ref_err : p_reference_link r (br (S n)) = Err.
    Proof.
      unfold p_reference_link. cbn [alt]. rewrite or_e by (apply bind_e, label_err). rewrite or_e by (apply pmap_e; unfold terminated; apply bind_e, label_err).
      apply pmap_e, label_err.
    Qed.
    Lemma not_text_err : p_not_a_text cfg r (br (S n)) = Err.
    Proof.
      unfold p_not_a_text. apply alt_err. cbn [rep repeat]. change (ch "[" :: repeat (ch "[") n) with (br (S n)).
      repeat apply Forall_cons1; try apply Forall_nil; try apply condu_e; apply unit_e; try reflexivity.
      - exact ref_err.
      - exact link_err.
      - apply foot_err.
    Qed.
  End Pure.
  Section At.
    Variables (er : eparser nat (list inline)) (r : parser (list inline)) (n k : nat).
    Hypothesis Hn : n < 1000.
    Hypothesis Sr : esim Q er r.
    Hypothesis Mr : mono er.
    Hypothesis Hr : r (br n) <> Oof.
    Hypothesis Hk : 0 < n -> calls er (br n) k.
    Lemma label_calls : 0 < n -> calls (ep_link_label er) (br (S n)) k.
    Proof.
      intro Hp. unfold ep_link_label, edelimited, epreceded. eapply calls_lift; [reflexivity|]. cbn [lit List.length]. unfold eterminated. apply calls_bind; [|intro; monos].
      destruct n as [|m] eqn:En; [lia|]. eapply calls_lift; [apply label_br; exact Hn|]. apply calls_nested, Hk, Hp.
    Qed.
    Lemma label_errs : errs (ep_link_label er) (br (S n)).
    Proof. apply (errs_sim _ Q _ (p_link_label r)); [sims|apply label_err; assumption]. Qed.
    Lemma link_calls : 0 < n -> calls (ep_inline_link er) (br (S n)) k.
    Proof. intro Hp. unfold ep_inline_link. apply calls_bind; [now apply label_calls|]. intros a. apply mv_bind; [exact Nat.le_trans|monos|]. intros [d t]. monos. Qed.
    Lemma errs_bind : forall A B (p : eparser nat A) (f : A -> eparser nat B) s, errs p s -> errs (ebind p f) s.
    Proof. intros A B p f s H w. specialize (H w). unfold ebind. destruct (p s w) as [[? ?| |] ?]; cbn in *; congruence. Qed.
    Lemma ref_calls : 0 < n -> calls (ep_reference_link er) (br (S n)) (k + (k + k)).
    Proof.
      intro Hp. unfold ep_reference_link. cbn [ealt]. apply calls_or; [|apply errs_bind, label_errs|apply calls_or; [|apply errs_map; unfold eterminated; apply errs_bind, label_errs|]].
      - apply calls_bind; [now apply label_calls|]. intro; monos.
      - apply calls_map. unfold eterminated. apply calls_bind; [now apply label_calls|]. intro; monos.
      - apply calls_map. now apply label_calls.
    Qed.
    Lemma not_text_calls : 0 < n -> calls (ep_not_a_text E er) (br (S n)) (k + (k + k) + k).
    Proof.
      intro Hp. unfold ep_not_a_text. opened.
      apply calls_skip; [monos|apply errs_lift, unit_e; reflexivity|].
      apply calls_or; [apply calls_map; now apply ref_calls|apply errs_map, (errs_sim _ Q _ (p_reference_link r)); [sims|apply ref_err; assumption]|].
      apply calls_skip; [monos|apply errs_lift, unit_e; reflexivity|].
      apply calls_skip; [monos|apply errs_lift, unit_e; reflexivity|].
      apply calls_skip; [monos|apply errs_lift, unit_e; reflexivity|].
      apply calls_or_l; [monos|]. apply calls_map. now apply link_calls.
    Qed.
    Lemma text_calls : 0 < n -> calls (ep_text E er) (br (S n)) (k + (k + k) + k).
    Proof.
      intro Hp. unfold ep_text. apply calls_map, calls_many1; [monos|]. cbn [ealt].
      apply calls_skip; [monos|apply errs_lift; reflexivity|]. apply calls_skip; [monos|apply errs_lift; reflexivity|].
      unfold ep_text_run. apply calls_recognize, calls_many1; [monos|]. apply calls_bind; [|intro; monos]. apply calls_peek, calls_not. now apply not_text_calls.
    Qed.
    Lemma inline_calls : 0 < n -> calls (ep_inline E er) (br (S n)) (8 * k).
    Proof.
      intro Hp. replace (8 * k) with (k + ((k + (k + k)) + (k + (k + k) + k))) by lia. unfold ep_inline. opened.
      apply calls_skip; [monos|apply errs_map, errs_lift; reflexivity|].
      apply calls_or; [apply calls_map, calls_map; now apply link_calls|apply errs_map, errs_map, (errs_sim _ Q _ (p_inline_link r)); [sims|apply link_err; assumption]|].
      apply calls_skip; [monos|apply errs_map, errs_lift, foot_err|].
      apply calls_or; [apply calls_map; now apply ref_calls|apply errs_map, (errs_sim _ Q _ (p_reference_link r)); [sims|apply ref_err; assumption]|].
      apply calls_skip; [monos|apply errs_map, errs_lift; reflexivity|].
      apply calls_skip; [monos|apply errs_map, errs_lift; reflexivity|].
      apply calls_skip; [monos|apply errs_map, errs_lift; reflexivity|].
      apply calls_skip; [monos|apply errs_lift; reflexivity|].
      apply calls_skip; [monos|apply errs_map, (errs_sim _ Q _ (p_emphasis cfg r)); [sims|reflexivity]|].
      apply calls_skip; [monos|apply errs_map, (errs_sim _ Q _ (p_strikethrough r)); [sims|reflexivity]|].
      apply calls_skip; [monos|apply errs_lift; reflexivity|].
      apply calls_map. unfold erun. apply calls_bind; [now apply text_calls|]. intros a s w. cbn. lia.
    Qed.
  End At.
  Lemma default_ok : custom_ok cfg. Proof. split; discriminate. Qed.
  Lemma inl_no_oof : forall s f, len s < f -> inline_many1_f cfg f s <> Oof.
  Proof.
    intros s f L. rewrite inline_many1_f_eq by (try exact default_ok; exact L). destruct s as [|c s]; [discriminate|].
    destruct (PropParser.C43_inline_consumes_all cfg default_ok ltac:(discriminate) (c :: s)) as [_ X]. destruct (X ltac:(discriminate)) as (l & ->). discriminate.
  Qed.
  Lemma br_len : forall n, len (br n) = n. Proof. intro. apply repeat_length. Qed.
  Lemma br_calls : forall n f, n < 1000 -> S n < f -> calls (einline_many1_f E f) (br (S n)) (8 ^ n).
  Proof.
    induction n as [|n IH]; intros f L Lf; (destruct f as [|f]; [lia|]); cbn [einline_many1_f]; apply calls_map, calls_many1; try (pose proof (m_inl f); monos).
    - intro w. assert (X : snd (ep_inline E (einline_many1_f E f) (br 1) w) = S w) by (destruct f; vm_compute; reflexivity). rewrite X. cbn [Nat.pow]. lia.
    - replace (8 ^ S n) with (8 * 8 ^ n) by (cbn [Nat.pow]; lia).
      apply (inline_calls _ (inline_many1_f cfg f)); [lia|apply s_inl|apply m_inl|apply inl_no_oof; rewrite br_len; lia| |lia].
      intros _. apply IH; lia.
  Qed.

  (** *** as documents *)
  Lemma doc_calls : forall s k, calls (eblock_f E (S (len s))) s k -> forall w, w + k <= snd (eparse_markdown E s w).
  Proof.
    intros s k H w. unfold eparse_markdown, ep_document. apply calls_map. unfold eterminated. apply calls_bind; [|intro; monos].
    apply calls_many0; [apply m_blk|exact H].
  Qed.
  Lemma quotes_doc : forall n w, w + 2 ^ n <= snd (eparse_markdown E (quotes n) w).
  Proof. intros n w. apply doc_calls, quotes_calls. rewrite quotes_len. lia. Qed.
  Lemma doc_one : forall s b, block_f cfg (S (len s)) s = Ok [] [b] -> s <> [] -> parse_markdown cfg s = Ok [] (Document [b]).
  Proof.
    intros s b H Hne. unfold parse_markdown, p_document, pmap, terminated, bind, many0. destruct s as [|c s]; [congruence|]. cbn [many0_go] in *. rewrite H.
    cbn [List.length Nat.eqb many0_go]. change (block_f cfg (S (S (len s))) []) with (block_f cfg (S (S (len s))) []). rewrite (block_end cfg). reflexivity.
  Qed.
  Lemma quotes_document : forall n, parse_markdown cfg (quotes n) = Ok [] (Document [quotes_block n]).
  Proof. intro n. apply doc_one; [apply quotes_parse; rewrite quotes_len; lia|destruct n; discriminate]. Qed.

  Lemma br_text : forall n, n < 1000 -> inline_many1 cfg (br (S n)) = Ok [] [IText (br (S n))].
  Proof.
    intros n L. pose proof default_ok as Ok_.
    assert (NO : forall m, inline_many1 cfg (br m) <> Oof) by (intro m; unfold inline_many1; apply inl_no_oof; lia).
    assert (NT : forall m, m < 1000 -> p_not_a_text cfg (inline_many1 cfg) (br (S m)) = Err) by (intros m Lm; apply not_text_err; [exact Lm|apply NO]).
    apply text_inline; try reflexivity; try exact Ok_.
    - rewrite <- (app_nil_r (br (S n))) at 2. apply pieces_text; try reflexivity; try exact Ok_; [discriminate|]. econstructor; [|constructor].
      cbn [alt]. rewrite or_e by reflexivity. rewrite or_e by reflexivity. apply quiet_run; try reflexivity; try exact Ok_; [discriminate|].
      intros a b Eab Hb. assert (X : b = br (len b)).
      { clear -Eab. assert (F : Forall (fun c => c = ch "[") b). { apply Forall_forall. intros c I. apply (repeat_spec (S n) (ch "[")). change (repeat (ch "[") (S n)) with (br (S n)). rewrite Eab. apply in_or_app. now right. }
        clear Eab. induction F as [|c b -> F IH]; [reflexivity|]. cbn [List.length rep repeat]. now rewrite IH at 1. }
      rewrite X. destruct b as [|c b]; [congruence|]. cbn [List.length]. apply NT. apply (f_equal (@List.length _)) in Eab. rewrite br_len, app_length in Eab. cbn [List.length] in Eab. unfold char, str in *. lia.
    - unfold p_inline. cbn [alt]. unfold conditional_inline at 1.
      rewrite or_e by (apply cond_e; reflexivity). rewrite or_e by (apply cond_e, pmap_e, link_err; [exact L|apply NO]).
      rewrite or_e by (apply cond_e, foot_err). rewrite or_e by (apply cond_e, ref_err; [exact L|apply NO]).
      repeat (rewrite or_e by reflexivity). reflexivity.
  Qed.

  Section Doc.
    Variables (n f : nat).
    Hypothesis Hn : n < 1000.
    Notation rec := (block_f cfg f).
    Notation src := (br (S n)).
    Lemma br_inked : inked (ch "["). Proof. repeat split; discriminate. Qed.
    Lemma br_def : p_link_definition cfg src = Err.
    Proof.
      unfold p_link_definition. apply bind_e. unfold preceded, bind. change src with (rep 0 c_sp ++ ch "[" :: br n). rewrite up3 by (lia || now apply no_space_cons).
      change (ch "[" :: br n) with src. apply label_err; [exact Hn|]. unfold inline_many1. apply inl_no_oof. lia.
    Qed.
    Lemma br_items : p_list_item_lines src = Err.
    Proof. change src with (rep 0 c_sp ++ ch "[" :: br n). apply item_lines_e; [lia|exact br_inked|]. left. reflexivity. Qed.
    Lemma br_foot : p_footnote_lines src = Err.
    Proof. unfold p_footnote_lines. unfold bind at 1. change src with (rep 0 c_sp ++ ch "[" :: br n). rewrite up3 by (lia || now apply no_space_cons). destruct n; reflexivity. Qed.
    Lemma br_start : p_is_paragraph_line_start cfg rec src = Ok src tt.
    Proof.
      pose proof br_inked as Hi. assert (Hd : src = rep 0 c_sp ++ ch "[" :: br n) by reflexivity.
      unfold p_is_paragraph_line_start, peek, not_. rewrite alt_err; [reflexivity|].
      repeat apply Forall_cons1; try apply Forall_nil; try apply condu_e; try match goal with |- p_unit _ _ = Err => apply unit_e end.
      - rewrite Hd. apply heading_e; [lia|left; discriminate].
      - rewrite Hd. apply level_e; try lia; try exact Hi; discriminate.
      - rewrite Hd. apply thematic_e; try lia; try exact Hi; discriminate.
      - rewrite Hd. apply blockquote_e; try lia; try exact Hi; discriminate.
      - unfold p_list_item. apply bind_e, br_items.
      - rewrite Hd. apply fenced_e; try lia; try exact Hi; discriminate.
      - rewrite Hd. apply html_e; try lia; try exact Hi; discriminate.
      - exact br_def.
      - unfold p_footnote_definition. apply bind_e, br_foot.
      - rewrite Hd. apply table_e; try lia; try exact Hi; discriminate.
      - reflexivity.
      - rewrite Hd. apply blank_e; try lia; exact Hi.
    Qed.
    Lemma br_line : preceded up_to_3_spaces not_eof_or_eol1 src = Ok [] src.
    Proof.
      unfold preceded, bind. change src with (rep 0 c_sp ++ ch "[" :: br n) at 1. rewrite up3 by (lia || now apply no_space_cons). change (ch "[" :: br n) with src.
      rewrite <- (app_nil_r src) at 1. apply not_eol1_line; [discriminate| |exact I]. apply Forall_forall. intros c J. apply repeat_spec in J. subst. split; discriminate.
    Qed.
    Lemma br_lines : line_terminated (separated_list0 line_ending (preceded (p_is_paragraph_line_start cfg rec) (preceded up_to_3_spaces not_eof_or_eol1))) src = Ok [] [src].
    Proof.
      apply (lt_stop _ _ _ []); [|exact I]. unfold separated_list0. unfold preceded at 1, bind at 1. rewrite br_start, br_line. reflexivity.
    Qed.
    Lemma br_heading2 : p_heading_v2_or_paragraph cfg rec src = Ok [] (BParagraph [IText src]).
    Proof.
      unfold p_heading_v2_or_paragraph, p_paragraph. unfold bind, ret. rewrite br_lines. cbn [app join]. unfold nested. rewrite br_text by exact Hn. reflexivity.
    Qed.
    Lemma br_block : p_block cfg rec src = Ok [] [BParagraph [IText src]].
    Proof.
      unfold p_block, preceded. unfold bind at 1. rewrite many_empty0 by (exists 0, (ch "["), (br n); split; [reflexivity|exact br_inked]). cbn [alt].
      rewrite or_e by (apply cond_e, pmap_e; change src with (rep 0 c_sp ++ ch "[" :: br n); apply code_block_e; [lia|exact br_inked|discriminate|discriminate]).
      rewrite or_e by (apply cond_e, pmap_e; change src with (rep 0 c_sp ++ ch "[" :: br n); apply heading_e; [lia|left; discriminate]).
      unfold or_else at 1. cbn [conditional_block conditional b_heading_v2 default_config]. unfold pmap, bind. now rewrite br_heading2.
    Qed.
    Lemma br_nested_calls : forall t, calls (enested (einline_many1 E) src) t (8 ^ n).
    Proof.
      intro t. apply calls_nested. assert (X : calls (einline_many1_f E (S (List.length src))) src (8 ^ n)).
      { apply br_calls; [exact Hn|]. pose proof (br_len (S n)) as X. unfold str, char in *. lia. }
      intro w. exact (X w).
    Qed.
    Lemma br_paragraph_calls : calls (ep_paragraph E (eblock_f E f) true) src (8 ^ n).
    Proof.
      pose proof (m_blk f) as Mr. pose proof (s_blk f) as Sr.
      unfold ep_paragraph. eapply calls_lift; [reflexivity|].
      eapply (calls_then _ _ (Forall2 eq)); [|monos|apply br_lines|].
      - apply sim_line. eapply sim_sep0; [apply sim_same|]. eapply sim_preceded; [eapply (sim_start false); side|apply sim_same].
      - intros a Ha. inversion Ha as [|? ? ? ? -> Hl]; subst. inversion Hl; subst. cbn [app join]. apply br_nested_calls.
    Qed.
    Lemma br_heading2_calls : calls (ep_heading_v2_or_paragraph E (eblock_f E f)) src (8 ^ n).
    Proof. unfold ep_heading_v2_or_paragraph. apply calls_bind; [apply br_paragraph_calls|intro; monos]. Qed.
    Lemma br_code_e : p_code_block src = Err.
    Proof. change src with (rep 0 c_sp ++ ch "[" :: br n). apply code_block_e; [lia|exact br_inked|discriminate|discriminate]. Qed.
    Lemma br_heading_e : p_heading_v1 cfg src = Err.
    Proof. change src with (rep 0 c_sp ++ ch "[" :: br n). apply heading_e; [lia|left; discriminate]. Qed.
    Lemma br_block_calls : calls (ep_block E (eblock_f E f)) src (8 ^ n).
    Proof.
      pose proof (m_blk f) as Mr. pose proof (s_blk f) as Sr.
      unfold ep_block, epreceded. eapply calls_lift.
      { apply many_empty0. exists 0, (ch "["), (br n). split; [reflexivity|exact br_inked]. }
      opened.
      apply calls_skip; [monos|apply errs_map, errs_lift, pmap_e, br_code_e|].
      apply calls_skip; [monos|apply errs_map, errs_map, (errs_sim _ Q _ (p_heading_v1 cfg)); [sims|exact br_heading_e]|].
      apply calls_or_l; [monos|]. apply calls_map, br_heading2_calls.
    Qed.
  End Doc.
  Lemma br_doc : forall n w, n < 1000 -> w + 8 ^ n <= snd (eparse_markdown E (br (S n)) w).
  Proof. intros n w L. apply doc_calls. cbn [eblock_f]. now apply br_block_calls. Qed.
  Lemma br_document : forall n, n < 1000 -> parse_markdown cfg (br (S n)) = Ok [] (Document [BParagraph [IText (br (S n))]]).
  Proof. intros n L. apply doc_one; [cbn [block_f]; now apply br_block|discriminate]. Qed.
End Cost.
