(** Proof of C80, continued: the block parser. *)
From Coq Require Import String Lia.
From Verif Require Import SpecEol Nom NomFacts ParserInline ParserInlineFacts ParserBlock ParserBlockFacts ParserLeaf EolFacts.
From Verif Require HtmlStart.
Import ListNotations.
Open Scope list_scope.
Local Notation len := (@List.length _).

Section Blocks.
  Variable cfg : config.
  Hypothesis Hcb : custom_block cfg = None.
  Definition html_on : Prop := b_html_block cfg <> Ignore.
  Definition defs_on : Prop := b_link_definition cfg <> Ignore \/ b_footnote_definition cfg <> Ignore.
  Notation sim := (sim html_on defs_on).
  Notation T := (T html_on defs_on).
  Notation TF := (TF html_on defs_on).
  Notation fine := (fine html_on defs_on).
  Lemma sim_lt : forall A B (R : A -> B -> Prop) p q, sim false R p q -> sim false R (line_terminated p) (line_terminated q).
  Proof. intros. eapply sim_terminated; [eassumption|apply sim_eol]. Qed.
  Lemma sim_chr : forall k c, c <> 10%N -> c <> 13%N -> sim k eq (char_ c) (char_ c).
  Proof. intros k c H H'. apply sim_satisfy; now apply N.eqb_neq. Qed.
  Lemma sim_mge_chr : forall k n c, c <> 10%N -> c <> 13%N -> sim k eq (many_ge n (char_ c)) (many_ge n (char_ c)).
  Proof. intros k n c H H'. apply sim_mge; try (now apply N.eqb_neq). now apply sim_chr. Qed.
  Lemma TF_eq : forall k p q, sim k TF p q -> sim k eq p q.
  Proof. intros k p q H. eapply sim_weaken; [exact H|]. now intros a b []. Qed.
  Lemma line0_eq : forall k, sim k eq not_eof_or_eol0 not_eof_or_eol0. Proof. intro. apply TF_eq, sim_line0. Qed.
  Lemma line1_eq : forall k, sim k eq not_eof_or_eol1 not_eof_or_eol1. Proof. intro. apply TF_eq, sim_line1. Qed.
  Lemma rec_eq : forall A k (p : parser A), sim true eq p p -> sim k eq (recognize p) (recognize p).
  Proof. intros. apply TF_eq. eapply sim_recognize_flat; eassumption. Qed.
  (** parsers whose results are the same on both sides *)
  Ltac sm := lazymatch goal with
    | |- sim ?k eq (line_terminated _) _ => apply sim_lt; sm
    | |- sim _ eq (p_unit _) _ => eapply (sim_unit _ _ _ _ _ eq); sm
    | |- sim _ eq (value _ _) _ => eapply (sim_value _ _ _ _ _ _ _ eq); [sm|reflexivity]
    | |- sim _ eq (pmap _ _) _ => eapply (sim_pmap _ _ _ _ _ _ _ eq); [sm|now intros ? ? ->]
    | |- sim _ eq (preceded _ _) _ => eapply (sim_preceded _ _ _ _ _ _ _ eq); sm
    | |- sim _ eq (terminated _ _) _ => eapply (sim_terminated _ _ _ _ _ _ _ eq eq); sm
    | |- sim _ eq (delimited _ _ _) _ => unfold delimited; sm
    | |- sim _ eq (pair_ _ _) _ => apply sim_pair; sm
    | |- sim _ eq (or_else _ _) _ => apply sim_or; sm
    | |- sim _ eq (alt _) _ => apply sim_alt; repeat (apply Forall2_cons; [sm|]); apply Forall2_nil
    | |- sim _ eq (many0 _) _ => apply sim_many0_eq; sm
    | |- sim _ eq (many1 _) _ => apply sim_many1_eq; sm
    | |- sim _ eq (many_m_n _ _ _) _ => apply sim_mmn; sm
    | |- sim _ eq (many_ge _ (chr _)) _ => apply sim_mge_chr; discriminate
    | |- sim _ eq (many_ge _ (char_ _)) _ => apply sim_mge_chr; discriminate
    | |- sim _ eq (opt _) _ => apply sim_opt; sm
    | |- sim _ eq (peek _) _ => eapply (sim_peek _ _ _ _ _ false); sm
    | |- sim _ eq (not_ _) _ => eapply (sim_not _ _ _ _ _ false eq); sm
    | |- sim _ eq (verify _ _) _ => apply sim_verify; sm
    | |- sim _ eq (separated_list1 _ _) _ => eapply (sim_sep1 _ _ _ _ _ eq); sm
    | |- sim _ eq (recognize _) _ => apply rec_eq; sm
    | |- sim _ eq (consumed _) _ => apply sim_consumed; sm
    | |- sim _ eq up_to_3_spaces _ => unfold up_to_3_spaces; sm
    | |- sim _ eq (chr _) _ => apply sim_chr; discriminate
    | |- sim _ eq (char_ _) _ => apply sim_chr; try assumption; try discriminate
    | |- sim _ eq (one_of _) _ => apply sim_satisfy; reflexivity
    | |- sim _ eq (satisfy _) _ => apply sim_satisfy; reflexivity
    | |- sim _ eq (Nom.tag _) _ => apply sim_tag; try assumption; repeat (apply Forall_cons; [split; discriminate|]); apply Forall_nil
    | |- sim _ eq space0 _ => apply sim_take; reflexivity
    | |- sim _ eq space1 _ => apply sim_take1; reflexivity
    | |- sim _ eq alpha1 _ => apply sim_take1; reflexivity
    | |- sim _ eq u64 _ => apply sim_u64
    | |- sim _ eq eof _ => apply sim_eof
    | |- sim _ eq not_eof_or_eol0 _ => apply line0_eq
    | |- sim _ eq not_eof_or_eol1 _ => apply line1_eq
    | |- sim _ eq (ret _) _ => apply sim_ret; reflexivity
    | |- sim _ eq fail _ => apply sim_fail
    | |- sim _ eq (nested _ _) _ => apply sim_nested_eq
    | |- sim _ eq (bind _ _) _ => eapply (sim_bind _ _ _ _ _ _ _ eq eq); [sm|intros ? ? ->; try sm]
    | |- _ => first [eassumption | idtac]
    end.
  Lemma e_break : sim false eq p_thematic_break p_thematic_break.
  Proof. unfold p_thematic_break. sm. Qed.
  Lemma e_indented : sim false eq p_code_block_indented p_code_block_indented.
  Proof. unfold p_code_block_indented. sm. Qed.
  Lemma e_fence : forall f, Forall (fun x => x <> 10%N /\ x <> 13%N) f -> sim false eq (p_ending_fence f) (p_ending_fence f).
  Proof.
    intros f H. unfold p_ending_fence. assert (C : hd 0%N f <> 10%N /\ hd 0%N f <> 13%N) by (destruct H; [split; discriminate|assumption]). destruct C. sm.
  Qed.
  Lemma flat_chars : forall a b, TF a b -> Forall (fun x => x <> 10%N /\ x <> 13%N) a.
  Proof.
    intros a b (-> & [E _] & N). apply Forall_forall. intros x J. split; intros ->; [auto|]. now apply eol_nocr in E.
  Qed.
  Lemma e_fenced : sim false eq p_code_block_fenced p_code_block_fenced.
  Proof.
    unfold p_code_block_fenced. eapply (sim_bind _ _ _ _ _ _ _ eq eq); [sm|intros ? x ->].
    eapply (sim_bind _ _ _ _ _ _ _ (fun a b => a = b /\ Forall (fun x => x <> 10%N /\ x <> 13%N) (fst a)) eq).
    - apply sim_lt. eapply (sim_bind _ _ _ _ _ _ _ TF); [eapply (sim_recognize_flat _ _ _ _ _ eq); sm|]. intros a b X. eapply (sim_pmap _ _ _ _ _ _ _ eq); [sm|].
      intros ? y ->. apply flat_chars in X as X'. destruct X as [-> _]. now split.
    - intros [f i] ? [<- N]. cbn [fst] in N. pose proof (e_fence f N). sm.
  Qed.
  Lemma e_code : sim false eq p_code_block p_code_block.
  Proof. apply sim_alt. apply Forall2_cons; [apply e_indented|]. apply Forall2_cons; [apply e_fenced|apply Forall2_nil]. Qed.
  Lemma e_heading1 : sim false eq (p_heading_v1 cfg) (p_heading_v1 cfg).
  Proof. unfold p_heading_v1. destruct (allow_no_space_in_headings cfg); sm. Qed.
  Lemma e_level : sim false eq p_heading_v2_level p_heading_v2_level.
  Proof. unfold p_heading_v2_level. sm. Qed.
  Lemma same_or : forall A k s s' (p q p' q' : parser A), same k eq s s' (p s) (p' s') -> same k eq s s' (q s) (q' s') ->
    same k eq s s' (or_else p q s) (or_else p' q' s').
  Proof. intros A k s s' p q p' q' H K. unfold or_else. unfold same in H. destruct (p s), (p' s'); try contradiction; try exact I; assumption. Qed.
  Lemma e_row : sim false eq (p_table_row cfg) (p_table_row cfg).
  Proof.
    unfold p_table_row. assert (C : sim false eq (p_cell_content cfg) (p_cell_content cfg)); [|sm].
    unfold p_cell_content. eapply (sim_bind _ _ _ _ _ _ _ eq eq); [|intros ? ? ->; sm]. unfold p_cell_chars. apply sim_many1_eq.
    intros s s' E F. unfold preceded, bind.
    assert (X : sim false eq (not_ (alt [p_unit eof_or_eol; p_unit (chr "|")])) (not_ (alt [p_unit eof_or_eol; p_unit (chr "|")]))).
    { eapply (sim_not _ _ _ _ _ false eq). apply sim_alt. apply Forall2_cons; [|apply Forall2_cons; [sm|apply Forall2_nil]]. eapply sim_unit. apply sim_eol. }
    specialize (X s s' E F). unfold same in X at 1.
    destruct (not_ (alt [p_unit eof_or_eol; p_unit (chr "|")]) s) as [r a| |] eqn:E1, (not_ (alt [p_unit eof_or_eol; p_unit (chr "|")]) s') as [r' b| |] eqn:E2; try contradiction; try exact I.
    assert (R : r = s /\ r' = s'). { unfold not_ in E1, E2. destruct (alt _ s); [discriminate| |discriminate]. destruct (alt _ s'); [discriminate| |discriminate]. injection E1 as <- _. injection E2 as <- _. auto. }
    destruct R as [-> ->]. clear X.
    revert s s' E F E1 E2. 
    assert (Z : forall s s', eol s s' -> fine s -> (exists c t, s = c :: t /\ c <> 10%N) -> same false eq s s' (alt [value (ch "|") (Nom.tag (lit "\|")); anychar] s) (alt [value (ch "|") (Nom.tag (lit "\|")); anychar] s')).
    { intros s s' E F (c & t & -> & N). inversion E; subst; [|easy].
      assert (X : sim false eq (value (ch "|") (Nom.tag (lit "\|"))) (value (ch "|") (Nom.tag (lit "\|")))) by sm.
      specialize (X _ _ E F). cbn [alt]. apply same_or; [exact X|].
      cbn. split; [reflexivity|]. exists [c], [c]. split; [reflexivity|]. split; [reflexivity|]. split; [apply eol_char; [assumption|apply eol_nil]|]. split; [assumption|discriminate]. }
    intros s s' E F E1 _. apply Z; try assumption. destruct s as [|c t]; [discriminate E1|]. exists c, t. split; [reflexivity|]. intros ->. discriminate E1.
  Qed.
  Lemma e_align : sim false eq p_alignment_row p_alignment_row.
  Proof. unfold p_alignment_row. sm. Qed.
  Lemma e_table : sim false eq (p_table cfg) (p_table cfg).
  Proof.
    unfold p_table. pose proof e_row. pose proof e_align. sm. destruct (negb _); [apply sim_fail|]. sm.
  Qed.
  Lemma e_marker : forall k, sim k eq p_list_marker p_list_marker.
  Proof. intro k. unfold p_list_marker, p_marker_ordered, p_marker_star, p_marker_plus, p_marker_dash. sm. Qed.
  Lemma e_marker_kind : forall k x, sim k eq (p_marker_of_kind x) (p_marker_of_kind x).
  Proof. intros k x; destruct x as [x|x]; try (destruct x; cbn [p_marker_of_kind]); cbn [p_marker_of_kind]; unfold p_marker_ordered, p_marker_star, p_marker_plus, p_marker_dash; sm. Qed.
  Lemma e_marker_spaces : sim false eq p_marker_spaces p_marker_spaces.
  Proof.
    unfold p_marker_spaces. pose proof (e_marker true). eapply (sim_bind _ _ _ _ _ _ _ eq eq); [sm|intros [x n] ? <-].
    unfold p_task_state. sm.
  Qed.
  Lemma e_marker_newline : sim false eq p_marker_newline p_marker_newline.
  Proof.
    unfold p_marker_newline. pose proof (e_marker true). eapply (sim_bind _ _ _ _ _ _ _ eq eq); [sm|intros [x n] ? <-].
    apply sim_or; [sm|]. eapply (sim_bind _ _ _ _ _ _ _ eq eq); [sm|intros [x' n'] ? <-]. unfold p_task_state. sm.
  Qed.
  (** first line: the same on both sides *)
  Lemma e_marker_span : sim false (fun a b => a = b /\ T (snd a) (snd b)) p_marker_with_span p_marker_with_span.
  Proof.
    apply sim_alt. apply Forall2_cons; [|apply Forall2_cons; [|apply Forall2_nil]].
    - eapply sim_pmap; [apply e_marker_newline|]. intros a b ->. split; [reflexivity|]. cbn. split; [constructor|apply fine_nil].
    - eapply (sim_bind _ _ _ _ _ _ _ eq); [apply e_marker_spaces|intros ? x ->]. eapply sim_pmap; [apply sim_lt, sim_line0|].
      intros a b (-> & X & _). now split.
  Qed.
  (** blank lines *)
  Definition ws (c : char) : Prop := c = 32%N \/ c = 9%N \/ c = 10%N \/ c = 13%N.
  Definition takes {A} (p : parser A) : Prop := forall s r a, p s = Ok r a -> exists t, s = t ++ r /\ Forall ws t.
  Lemma takes_bind : forall A B (p : parser A) (f : A -> parser B), takes p -> (forall a, takes (f a)) -> takes (bind p f).
  Proof.
    intros A B p f H K s r b E. unfold bind in E. destruct (p s) as [m a| |] eqn:Ep; try discriminate. apply H in Ep as (t & -> & W). apply K in E as (u & -> & W').
    exists (t ++ u). split; [now rewrite app_assoc|]. now apply Forall_app.
  Qed.
  Lemma takes_ret : forall A (a : A), takes (ret a).
  Proof. intros A a s r b E. injection E as <- <-. now exists []. Qed.
  Lemma takes_space0 : takes space0.
  Proof.
    intros s r a E. unfold space0, take_while in E. destruct (span is_space s) as [u v] eqn:Es. injection E as <- <-. exists u. revert u v Es.
    induction s as [|c s IH]; intros u v Es; cbn [span] in Es; [injection Es as <- <-; now split|].
    destruct (is_space c) eqn:Ec; [|injection Es as <- <-; now split]. destruct (span is_space s) as [x y]. injection Es as <- <-. destruct (IH x y eq_refl) as [-> W]. split; [reflexivity|].
    constructor; [|assumption]. apply Bool.orb_prop in Ec. destruct Ec as [Ec|Ec]; apply N.eqb_eq in Ec; unfold ws; auto.
  Qed.
  Lemma takes_eol : takes eof_or_eol.
  Proof.
    intros s r a E. destruct s as [|c s]; [injection E as <- <-; now exists []|]. unfold eof_or_eol, line_ending in E. cbn [alt] in E. unfold or_else, Nom.tag, tag_by in E. cbn [tag_go] in E.
    destruct (N.eqb_spec c_nl c) as [<-|N1]; [injection E as <- <-; exists [c_nl]; split; [reflexivity|]; apply Forall_cons; [unfold ws; auto|apply Forall_nil]|].
    destruct (N.eqb_spec c_cr c) as [<-|N2]; [|discriminate E]. destruct s as [|d s]; [discriminate E|]. destruct (N.eqb_spec c_nl d) as [<-|N1']; [|discriminate E].
    injection E as <- <-. exists [c_cr; c_nl]. split; [reflexivity|]. repeat (apply Forall_cons; [unfold ws, c_cr, c_nl; auto|]). apply Forall_nil.
  Qed.
  Lemma takes_go : forall A (p : parser A), takes p -> forall n, takes (many0_go n p).
  Proof.
    intros A p H n. induction n as [|n IH]; intros s r l E; cbn [many0_go] in E; [discriminate|].
    destruct (p s) as [m a| |] eqn:Ep; try discriminate; [|injection E as <- <-; now exists []]. destruct (_ =? _); [discriminate|].
    destruct (many0_go n p m) as [r' l'| |] eqn:En; try discriminate. injection E as <- <-. apply H in Ep as (t & -> & W). apply IH in En as (u & -> & W').
    exists (t ++ u). split; [now rewrite app_assoc|]. now apply Forall_app.
  Qed.
  Lemma takes_blank : takes (many1 (line_terminated space0)).
  Proof.
    assert (H : takes (line_terminated space0)).
    { apply takes_bind; [apply takes_space0|]. intro a. apply takes_bind; [apply takes_eol|]. intro. apply takes_ret. }
    apply takes_bind; [exact H|]. intro a. apply takes_bind; [|intro; apply takes_ret]. intros s. apply takes_go. exact H.
  Qed.
  Lemma e_blank : sim false (fun a b => T a b /\ Forall ws a) (recognize (many1 (line_terminated space0))) (recognize (many1 (line_terminated space0))).
  Proof.
    intros s s' E F. assert (X : sim false T (recognize (many1 (line_terminated space0))) (recognize (many1 (line_terminated space0)))) by (eapply (sim_recognize _ _ _ _ eq); sm).
    specialize (X s s' E F). unfold recognize, same in *. destruct (many1 (line_terminated space0) s) as [r a| |] eqn:Ep, (many1 (line_terminated space0) s') as [r' b| |]; try contradiction; try exact I.
    destruct X as [X M]. split; [|exact M]. split; [exact X|]. apply takes_blank in Ep as (t & -> & W). rewrite app_length. replace (len t + len r - len r) with (len t) by lia.
    now rewrite firstn_app, Nat.sub_diag, firstn_all, firstn_O, app_nil_r.
  Qed.
  Lemma fine_ws : forall w a, Forall ws w -> fine a -> fine (w ++ a).
  Proof.
    intros w a W F. destruct w as [|c w]; [exact F|]. apply (fine_bridge html_on defs_on (c :: w) [] a); [|discriminate|apply fine_nil|exact F].
    intros x J. rewrite Forall_forall in W. destruct (W x J) as [->|[->|[->| ->]]]; (repeat apply conj; [discriminate..|apply tag_start_not; cbn; tauto]).
  Qed.
  Definition TC (a b : list str) : Prop := T (concat a) (concat b).
  Lemma e_rest : forall x n, sim false TC (p_rest_line x n) (p_rest_line x n).
  Proof.
    intros x n. assert (K := e_marker_kind false x). assert (B := e_break).
    intros s s' E F. unfold p_rest_line.
    match goal with |- context [line_terminated ?p s] => set (P := line_terminated p) end.
    assert (SP : sim false TC P P).
    { apply sim_lt. eapply (sim_preceded _ _ _ _ _ _ _ eq).
      - sm.
      - apply sim_alt. apply Forall2_cons; [|apply Forall2_cons; [|apply Forall2_nil]].
        + eapply (sim_preceded _ _ _ _ _ _ _ eq); [sm|]. eapply sim_pmap; [apply sim_line1|]. intros a b (-> & X & _). unfold TC. cbn [concat]. now rewrite app_nil_r.
        + eapply (sim_pmap _ _ _ _ _ _ _ (fun a b => T (fst a) (fst b) /\ Forall ws (fst a) /\ T (snd a) (snd b))).
          * eapply sim_bind; [apply e_blank|]. intros a b [X W]. eapply sim_pmap; [eapply (sim_preceded _ _ _ _ _ _ _ eq); [sm|apply sim_line1]|].
            intros u v (-> & Y & _). split; [exact X|split; [exact W|exact Y]].
          * intros [a1 a2] [b1 b2] ([X1 X2] & W & [Y1 Y2]). unfold TC. cbn [fst snd concat] in *. rewrite !app_nil_r. split; [now apply eol_app|]. now apply fine_ws. }
    destruct E as [|c s s' N E|s s' E]; [exact I| |]; (apply SP; [|exact F]); [now apply eol_char|now apply eol_cr].
  Qed.
  Lemma content_T : forall first first' rest rest', T first first' -> Forall2 TC rest rest' -> T (lines_content first (map (@concat _) rest)) (lines_content first' (map (@concat _) rest')).
  Proof.
    intros f f' l l' Hf H. revert f f' Hf. induction H as [|a b l l' X _ IH]; intros f f' Hf; unfold lines_content in *; cbn [map flat_map].
    - now rewrite !app_nil_r.
    - rewrite !app_assoc. apply IH. clear IH. destruct Hf as [E1 F1], X as [E2 F2]. split.
      + apply eol_app; [assumption|]. apply eol_char; [discriminate|assumption].
      + apply (fine_bridge html_on defs_on [c_nl] f (concat a)); [|discriminate|assumption|assumption]. intros c [<-|[]]. repeat apply conj; [discriminate..|apply tag_start_not; cbn; tauto].
  Qed.
  Lemma e_item_lines : sim false (fun a b => fst a = fst b /\ T (snd a) (snd b)) p_list_item_lines p_list_item_lines.
  Proof.
    unfold p_list_item_lines. eapply sim_bind; [apply e_marker_span|]. intros [[[x n] t] f] b [<- X]. cbn [snd] in X.
    eapply sim_bind; [apply sim_many0, e_rest|]. intros l l' H. apply sim_ret. cbn [fst snd]. split; [reflexivity|]. now apply content_T.
  Qed.
  (** joined lines *)
  Lemma join_T : forall l l', Forall2 TF l l' -> l = l' /\ T (join [c_nl] l) (join [c_nl] l').
  Proof.
    intros l l' H. assert (E : l = l') by (clear -H; induction H as [|a b l l' [-> _] _ IH]; [reflexivity|now rewrite IH]). split; [exact E|]. subst l'.
    induction l as [|a l IH]; [cbn; split; [constructor|apply fine_nil]|]. inversion H as [|? ? ? ? (_ & X & _) H']; subst. specialize (IH H').
    destruct l as [|b l]; [exact X|]. change (T (a ++ [c_nl] ++ join [c_nl] (b :: l)) (a ++ [c_nl] ++ join [c_nl] (b :: l))). destruct X as [E1 F1], IH as [E2 F2]. split.
    - apply eol_app; [assumption|]. apply eol_char; [discriminate|assumption].
    - apply fine_bridge; try assumption; [|discriminate]. intros c [<-|[]]. repeat apply conj; [discriminate..|apply tag_start_not; cbn; tauto].
  Qed.
  Lemma e_quote_lines : sim false (Forall2 TF) p_quote_lines p_quote_lines.
  Proof. apply sim_many1. unfold p_quote_prefix. eapply (sim_preceded _ _ _ _ _ _ _ eq); [sm|]. apply sim_lt, sim_line0. Qed.

  (** ** Blocks that are absent *)
  Definition dead {A} (p : parser A) : Prop := forall s s', eol s s' -> fine s -> p s = Err /\ p s' = Err.
  Lemma sim_dead : forall A (p : parser A) k, dead p -> sim k eq p p.
  Proof. intros A p k H s s' E F. destruct (H s s' E F) as [-> ->]. exact I. Qed.
  Lemma dead_when : forall A (p : parser A) (P : str -> Prop), (forall s, P s -> p s = Err) -> (forall s s', eol s s' -> fine s -> P s /\ P s') -> dead p.
  Proof. intros A p P H K s s' E F. destruct (K s s' E F). auto. Qed.
  Lemma spaces_suffix : forall s, exists t r, up_to_3_spaces s = Ok r t /\ exists u, s = u ++ r.
  Proof.
    assert (H : forall mx s, exists t r, many_m_n 0 mx (chr " ") s = Ok r t /\ exists u, s = u ++ r).
    { induction mx as [|mx IH]; intros s; cbn [many_m_n]; [exists [], s; split; [reflexivity|now exists []]|].
      destruct (chr " " s) as [r a| |] eqn:E.
      - destruct s as [|c s]; [discriminate E|]. unfold chr, char_ in E. cbn [satisfy] in E. destruct (_ =? c)%N; [|discriminate E]. injection E as <- <-.
        destruct (Nat.eqb_spec (len s) (len (c :: s))) as [L|_]; [cbn in L; lia|]. cbn [pred]. destruct (IH s) as (t & r & -> & u & ->). exists (c :: t), r. split; [reflexivity|]. now exists (c :: u).
      - exists [], s. split; [reflexivity|now exists []].
      - destruct s as [|c s]; [discriminate E|]. unfold chr, char_ in E. cbn [satisfy] in E. destruct (_ =? c)%N; discriminate E. }
    intro s. apply H.
  Qed.
  Hypothesis Hc : custom_ok cfg.
  Notation pair_of := has_colon_after_bracket.
  Lemma pair_suffix : forall t r, pair_of r -> pair_of (t ++ r).
  Proof. intros t r (a & b & ->). exists (t ++ a), b. now rewrite app_assoc. Qed.
  Lemma link_dead : forall s, ~ pair_of s -> p_link_definition cfg s = Err.
  Proof.
    intros s H. destruct (p_link_definition cfg s) as [r v| |] eqn:E; [|reflexivity|].
    - exfalso. apply H. clear H. unfold p_link_definition in E. unfold bind in E at 1.
      destruct (preceded up_to_3_spaces (p_link_label (inline_many1 cfg)) s) as [m l| |] eqn:E1; try discriminate.
      unfold bind in E at 1. destruct (chr ":" m) as [m2 x| |] eqn:E2; try discriminate. clear E.
      destruct m as [|c m]; [discriminate E2|]. unfold chr, char_ in E2. cbn [satisfy] in E2. destruct (N.eqb_spec (ch ":") c) as [<-|]; [|discriminate E2]. clear E2.
      unfold preceded, bind in E1. destruct (spaces_suffix s) as (t & q & Eq & u & ->). rewrite Eq in E1. apply pair_suffix.
      unfold p_link_label, delimited, preceded, terminated, value, pmap, bind in E1.
      destruct (Nom.tag (lit "[") q) as [q1 x1| |] eqn:T1; try discriminate.
      assert (S1 : eats false (Nom.tag (lit "["))) by eats. apply S1 in T1 as (w1 & -> & _). apply pair_suffix.
      destruct (p_label_chars q1) as [q2 x2| |] eqn:T2; try discriminate. apply eats_label_chars in T2 as (w2 & -> & _). apply pair_suffix.
      unfold nested in E1. destruct (inline_many1 cfg x2) as [q3 x3| |]; try discriminate.
      destruct (Nom.tag (lit "]") q2) as [q4 x4| |] eqn:T3; try discriminate. injection E1 as -> _. apply tag_iff in T3 as [-> _]. now exists [], m.
    - exfalso. destruct (rel_linkdef cfg Hc (len s) s (Nat.le_refl _)) as [_ X]. auto.
  Qed.
  Lemma foot_dead : forall s, ~ pair_of s -> p_footnote_lines s = Err.
  Proof.
    intros s H. destruct (p_footnote_lines s) as [r v| |] eqn:E; [|reflexivity|].
    - exfalso. apply H. clear H. unfold p_footnote_lines, bind in E. destruct (spaces_suffix s) as (t & q & Eq & u & ->). rewrite Eq in E. apply pair_suffix.
      destruct (Nom.tag (lit "[^") q) as [q1 x1| |] eqn:T1; try discriminate.
      assert (S1 : eats false (Nom.tag (lit "[^"))) by eats. apply S1 in T1 as (w1 & -> & _). apply pair_suffix.
      match type of E with context [recognize ?p q1] => destruct (recognize p q1) as [q2 x2| |] eqn:T2; try discriminate; assert (S2 : eats false (recognize p)) by eats end.
      apply S2 in T2 as (w2 & -> & _). apply pair_suffix.
      destruct (Nom.tag (lit "]:") q2) as [q3 x3| |] eqn:T3; try discriminate. apply tag_iff in T3 as [-> _]. now exists [], q3.
    - exfalso. assert (X : rel (len s) p_footnote_lines p_footnote_lines) by (unfold p_footnote_lines; rel). destruct (X s (Nat.le_refl _)). auto.
  Qed.
  Lemma fine_lt : html_on -> forall s s', eol s s' -> fine s -> ~ opens_tag s /\ ~ opens_tag s'.
  Proof. intros H s s' E [F _]. split; [now apply F|]. intro J. apply (eol_tag _ _ E) in J. now apply F in J. Qed.
  Lemma fine_pair : defs_on -> forall s s', eol s s' -> fine s -> ~ pair_of s /\ ~ pair_of s'.
  Proof. intros H s s' E [_ F]. split; [now apply F|]. intro J. apply (eol_pair _ _ E) in J. now apply F in J. Qed.

  Lemma e_cond : forall A (b : behavior A) d p, (b <> Ignore -> sim false eq p p) -> sim false eq (conditional b d p) (conditional b d p).
  Proof.
    intros A b d p H. destruct b; cbn [conditional]; try apply sim_fail; assert (X : sim false eq p p) by (apply H; discriminate); sm.
  Qed.
  Lemma e_cond_unit : forall A (b : behavior A) p, (b <> Ignore -> sim false eq p p) -> sim false eq (conditional_unit b p) (conditional_unit b p).
  Proof. intros A b p H. destruct b; cbn [conditional_unit]; try apply sim_fail; apply H; discriminate. Qed.
  Lemma e_cond_vec : forall b p, sim false eq p p -> sim false eq (conditional_block_vec b p) (conditional_block_vec b p).
  Proof. intros b p H. destruct b; cbn [conditional_block_vec]; sm. Qed.

  Section Rec.
    Variable rec : parser (list block).
    Hypothesis Hrec : sim false eq rec rec.
    Lemma e_nested1 : forall k c c', T c c' -> sim k eq (nested (many1 rec) c) (nested (many1 rec) c').
    Proof. intros k c c' H. eapply sim_nested; [|exact H]. apply sim_many1_eq. exact Hrec. Qed.
    Lemma e_nested0 : forall k c c', T c c' -> sim k eq (nested (many0 rec) c) (nested (many0 rec) c').
    Proof. intros k c c' H. eapply sim_nested; [|exact H]. apply sim_many0_eq. exact Hrec. Qed.
    Lemma e_quote : sim false eq (p_blockquote rec) (p_blockquote rec).
    Proof.
      unfold p_blockquote. eapply sim_bind; [apply e_quote_lines|]. intros a b H. apply join_T in H as [_ H]. eapply (sim_pmap _ _ _ _ _ _ _ eq); [now apply e_nested1|now intros ? ? ->].
    Qed.
    Lemma e_alert : sim false eq (p_github_alert cfg rec) (p_github_alert cfg rec).
    Proof.
      unfold p_github_alert, p_quote_prefix. eapply (sim_bind _ _ _ _ _ _ _ eq eq); [sm|intros ? x ->]. destruct (parse_alert_marker cfg (trim x)) as [ty|]; [|apply sim_fail].
      eapply sim_bind; [apply e_quote_lines|]. intros a b H.
      assert (J : Forall2 TF (tl a) (tl b)) by (destruct H; [constructor|assumption]). apply join_T in J as [E J]. rewrite <- E in *.
      eapply (sim_bind _ _ _ _ _ _ _ eq eq); [|intros ? ? ->; sm].
      destruct (join [c_nl] (tl a)) as [|c t]; [sm|]. eapply (sim_pmap _ _ _ _ _ _ _ eq); [now apply e_nested1|now intros ? ? ->].
    Qed.
    Lemma e_item : sim false eq (p_list_item rec) (p_list_item rec).
    Proof.
      unfold p_list_item. eapply sim_bind; [apply e_item_lines|]. intros [[x t] c] [[x' t'] c'] [E X]. cbn [fst snd] in *. injection E as <- <-.
      eapply (sim_bind _ _ _ _ _ _ _ eq eq); [eapply (sim_pmap _ _ _ _ _ _ _ eq); [now apply e_nested0|now intros ? ? ->]|intros ? ? ->; sm].
    Qed.
    Lemma e_list : sim false eq (p_list rec) (p_list rec).
    Proof. unfold p_list. pose proof e_item. eapply (sim_bind _ _ _ _ _ _ _ eq eq); [sm|intros ? l ->]. destruct l as [|[x i] l]; sm. Qed.
    Lemma e_html : html_on -> sim false eq p_html_block p_html_block.
    Proof. intro H. apply sim_dead. eapply dead_when; [apply HtmlStart.html_dead|apply fine_lt, H]. Qed.
    Lemma e_link : defs_on -> sim false eq (p_link_definition cfg) (p_link_definition cfg).
    Proof. intro H. apply sim_dead. eapply dead_when; [apply link_dead|apply fine_pair, H]. Qed.
    Lemma e_foot : defs_on -> sim false eq (p_footnote_definition rec) (p_footnote_definition rec).
    Proof.
      intro H. assert (X : sim false eq p_footnote_lines p_footnote_lines). { apply sim_dead. eapply dead_when; [apply foot_dead|apply fine_pair, H]. }
      apply sim_dead. intros s s' E F. destruct (fine_pair H s s' E F). unfold p_footnote_definition, bind. rewrite !foot_dead by assumption. auto.
    Qed.
    Lemma e_start : forall k, sim k eq (p_is_paragraph_line_start cfg rec) (p_is_paragraph_line_start cfg rec).
    Proof.
      intro k. unfold p_is_paragraph_line_start. eapply (sim_peek _ _ _ _ _ false). eapply (sim_not _ _ _ _ _ false eq). apply sim_alt.
      unfold p_custom_block. rewrite Hcb.
      repeat (apply Forall2_cons; [|]); [..|apply Forall2_nil]; try (apply e_cond_unit; intro On; eapply (sim_unit _ _ _ _ _ eq)).
      - apply e_heading1.
      - apply e_level.
      - sm.
      - apply e_quote.
      - apply e_item.
      - apply e_fenced.
      - now apply e_html.
      - apply e_link. now left.
      - apply e_foot. now right.
      - apply e_table.
      - sm.
      - sm.
    Qed.
    Lemma e_paragraph : forall b, sim false eq (p_paragraph cfg rec b) (p_paragraph cfg rec b).
    Proof.
      intro b. unfold p_paragraph. eapply (sim_bind _ _ _ _ _ _ _ eq eq); [destruct b; sm|intros ? x ->].
      eapply (sim_bind _ _ _ _ _ _ _ eq eq); [|intros ? y ->; sm]. apply sim_lt. eapply sim_sep0; [apply sim_line_ending|]. pose proof (e_start false). sm.
    Qed.
    Lemma e_block : sim false eq (p_block cfg rec) (p_block cfg rec).
    Proof.
      unfold p_block. eapply (sim_preceded _ _ _ _ _ _ _ (Forall2 (fun _ _ => True))).
      { apply sim_many0. eapply (sim_preceded _ _ _ _ _ _ _ eq); [sm|apply sim_eol]. }
      apply sim_alt. unfold p_custom_block. rewrite Hcb.
      repeat (apply Forall2_cons; [|]); [..|apply Forall2_nil]; try (apply e_cond; intro On; eapply (sim_pmap _ _ _ _ _ _ _ eq); [|now intros ? ? ->]).
      - apply e_code.
      - apply e_heading1.
      - apply e_cond. intros _. unfold p_heading_v2_or_paragraph. pose proof (e_paragraph true). pose proof e_level. sm.
      - apply e_break.
      - apply e_cond_vec. apply e_alert.
      - apply e_quote.
      - apply e_list.
      - now apply e_html.
      - apply e_foot. now right.
      - apply e_link. now left.
      - apply e_table.
      - sm.
      - apply e_paragraph.
    Qed.
  End Rec.
  Lemma e_block_f : forall n, sim false eq (block_f cfg n) (block_f cfg n).
  Proof. induction n as [|n IH]; [intros s s' _ _; exact I|]. cbn [block_f]. now apply e_block. Qed.
  Lemma e_document : forall n, sim false eq (p_document (block_f cfg n)) (p_document (block_f cfg n)).
  Proof.
    intro n. pose proof (e_block_f n). unfold p_document. eapply (sim_pmap _ _ _ _ _ _ _ eq); [|now intros ? ? ->].
    eapply (sim_terminated _ _ _ _ _ _ _ eq (fun _ _ => True)); [sm|].
    eapply (sim_bind _ _ _ _ _ _ _ (Forall2 (fun _ _ => True))).
    - apply sim_many0. apply sim_alt. apply Forall2_cons; [eapply (sim_weaken _ _ _ _ _ eq); [sm|auto]|]. apply Forall2_cons; [apply sim_line_ending|apply Forall2_nil].
    - intros a b _. eapply sim_pmap; [apply sim_eof|auto].
  Qed.
  Lemma document_fuel : forall n s, len s < n -> p_document (block_f cfg n) s = parse_markdown cfg s.
  Proof.
    intros n s L. unfold parse_markdown.
    assert (R : rel (len s) (p_document (block_f cfg n)) (p_document (block_f cfg (S (len s))))).
    { pose proof (rel_block_f cfg Hc (len s) n (S (len s)) L ltac:(lia)). pose proof (eats_block_f cfg Hc n). pose proof (eats_block_f cfg Hc (S (len s))). unfold p_document. rel. }
    now apply R.
  Qed.
  Theorem eol_same : forall s s', eol s s' -> fine s ->
    match parse_markdown cfg s, parse_markdown cfg s' with Ok _ d, Ok _ d' => d = d' | Err, Err => True | Oof, Oof => True | _, _ => False end.
  Proof.
    intros s s' E F. pose proof (eol_len _ _ E) as L. rewrite <- (document_fuel (S (len s')) s) by lia. rewrite <- (document_fuel (S (len s')) s') by lia.
    pose proof (e_document (S (len s')) s s' E F) as X. unfold same in X. destruct (p_document _ s), (p_document _ s'); try contradiction; try exact I. apply X.
  Qed.
End Blocks.
