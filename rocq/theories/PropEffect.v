(** Properties of the parser when the closures of its configuration have
    state: C83 (what does not change), C84 (how often they are called). *)
From Coq Require Import String List Lia PeanoNat.
From Verif Require Import SpecParser PropParser SpecAst EffCost EffSeen SpecEffect.
Import ListNotations.
Open Scope list_scope.

(** ** C83 *)
Lemma answer_behaves : forall W A (b : ebehavior W A) w0, on_hook blind b -> behaves true b (answer w0 b).
Proof. intros W A [| | |f|f] w0 H; cbn in *; auto; intros a w; apply H. Qed.
Lemma rrel_eq : forall A (x y : res A), rrel (@eqv true A) x y -> x = y.
Proof. intros A [r a| |] [r' a'| |] H; cbn in H; try contradiction; try reflexivity. destruct H as [-> ->]. reflexivity. Qed.
Lemma answer_custom : forall W A (p : option (eparser W A)) w0, on_custom blind p -> customs true p (option_map (fun p s => fst (p s w0)) p).
Proof.
  intros W A [p|] w0 H; cbn in *; [|exact I]. intros s w. rewrite (H s w w0). destruct (fst (p s w0)); cbn; auto.
Qed.

(** When the answers of the closures do not depend on the state, the result
    is that of the parser with the pure closures: nothing that is proved of
    [parse_markdown] is lost by counting, logging or collecting. *)
Theorem C83_blind_closures : forall W (E : econfig W) (w0 : W), every_closure blind E ->
  forall s w, fst (eparse_markdown E s w) = parse_markdown (answers w0 E) s.
Proof.
  intros W E w0 (Hb & Hi & Hcb & Hci) s w. apply rrel_eq, sim_parse; try reflexivity.
  - cbn [answers b_blockquote b_github_alert b_heading_v1 b_heading_v2 b_thematic_break b_list b_code_block b_html_block b_footnote_definition b_link_definition b_table b_paragraph].
    decompose [and] Hb. repeat split; now apply answer_behaves.
  - cbn [answers i_autolink i_link i_footnote_reference i_reference_link i_hard_newline i_image i_code_span i_emphasis i_strikethrough i_text].
    decompose [and] Hi. repeat split; now apply answer_behaves.
  - now apply answer_custom.
  - now apply answer_custom.
Qed.
Print Assumptions C83_blind_closures.

(** Whatever the closures answer and remember, parsing succeeds and reads the
    whole input. *)
Definition unhook {W A} (b : ebehavior W A) : behavior A :=
  match b with EIgnore => Ignore | ESkip => Skip | _ => Parse end.
Lemma unhook_behaves : forall W A (b : ebehavior W A), behaves false b (unhook b).
Proof. intros W A [| | |f|f]; cbn; auto. Qed.
Theorem C83_total : forall W (E : econfig W), e_custom_block E = None -> e_custom_inline E = None ->
  ei_text E <> EIgnore -> eb_paragraph E <> EIgnore ->
  forall s w, exists d w', eparse_markdown E s w = (Ok [] d, w').
Proof.
  intros W E Hcb Hci Ht Hp s w.
  set (cfg := {| allow_no_space_in_headings := e_allow_no_space_in_headings E;
     html_entities := e_html_entities E;
     b_blockquote := unhook (eb_blockquote E); b_github_alert := unhook (eb_github_alert E);
     b_heading_v1 := unhook (eb_heading_v1 E); b_heading_v2 := unhook (eb_heading_v2 E);
     b_thematic_break := unhook (eb_thematic_break E); b_list := unhook (eb_list E);
     b_code_block := unhook (eb_code_block E); b_html_block := unhook (eb_html_block E);
     b_footnote_definition := unhook (eb_footnote_definition E); b_link_definition := unhook (eb_link_definition E);
     b_table := unhook (eb_table E); b_paragraph := unhook (eb_paragraph E);
     i_autolink := unhook (ei_autolink E); i_link := unhook (ei_link E);
     i_footnote_reference := unhook (ei_footnote_reference E); i_reference_link := unhook (ei_reference_link E);
     i_hard_newline := unhook (ei_hard_newline E); i_image := unhook (ei_image E);
     i_code_span := unhook (ei_code_span E); i_emphasis := unhook (ei_emphasis E);
     i_strikethrough := unhook (ei_strikethrough E); i_text := unhook (ei_text E);
     custom_block := None; custom_inline := None;
     punct_table := e_punct_table E; upper_table := e_upper_table E |}).
  assert (S1 : rrel (@eqv false document) (fst (eparse_markdown E s w)) (parse_markdown cfg s)).
  { apply sim_parse; try reflexivity.
    - unfold cfg. cbn [b_blockquote b_github_alert b_heading_v1 b_heading_v2 b_thematic_break b_list b_code_block b_html_block b_footnote_definition b_link_definition b_table b_paragraph].
      repeat split; apply unhook_behaves.
    - unfold cfg. cbn [i_autolink i_link i_footnote_reference i_reference_link i_hard_newline i_image i_code_span i_emphasis i_strikethrough i_text].
      repeat split; apply unhook_behaves.
    - now rewrite Hcb.
    - now rewrite Hci. }
  destruct (C42_parse_total cfg) with (s := s) as [d Hd].
  - split; discriminate.
  - unfold cfg. cbn [i_text]. destruct (ei_text E); cbn; congruence.
  - unfold cfg. cbn [b_paragraph]. destruct (eb_paragraph E); cbn; congruence.
  - rewrite Hd in S1. destruct (eparse_markdown E s w) as [[r a| |] w']; cbn in S1; try contradiction.
    destruct S1 as [-> _]. now exists a, w'.
Qed.
Print Assumptions C83_total.

(** The parser itself does not touch the state: it changes only as calls of
    closures change it. *)
Lemma along_moves : forall W (rel : W -> W -> Prop) (E : econfig W), every_closure (along rel) E -> config_moves rel E.
Proof.
  intros W rel E (Hb & Hi & Hcb & Hci).
  assert (X : forall A (b : ebehavior W A), on_hook (along rel) b -> hook_moves rel b) by (intros A [| | |f|f] H; exact H).
  assert (Y : forall A (p : option (eparser W A)), on_custom (along rel) p -> custom_moves rel p) by (intros A [p|] H; exact H).
  decompose [and] Hb. decompose [and] Hi. split; [repeat split; now apply X|split; [repeat split; now apply X|split; now apply Y]].
Qed.
Theorem C83_state_moves : forall W (rel : W -> W -> Prop) (E : econfig W),
  (forall w, rel w w) -> (forall a b c, rel a b -> rel b c -> rel a c) -> every_closure (along rel) E ->
  forall s w, rel w (snd (eparse_markdown E s w)).
Proof. intros W rel E Hr Ht H s w. apply mv_parse; [exact Hr|exact Ht|now apply along_moves]. Qed.
Print Assumptions C83_state_moves.
(** ... so an invariant of the closures is an invariant of the parse *)
Theorem C83_invariant : forall W (I : W -> Prop) (E : econfig W), every_closure (along (fun w w' => I w -> I w')) E ->
  forall s w, I w -> I (snd (eparse_markdown E s w)).
Proof. intros W I E H s w. apply (C83_state_moves W (fun w w' => I w -> I w')); auto. Qed.
Print Assumptions C83_invariant.
(** ... and without closures nothing changes *)
Theorem C83_no_closures : forall W (E : econfig W), every_closure (fun _ _ _ => False) E ->
  forall s w, snd (eparse_markdown E s w) = w.
Proof.
  intros W E H s w. symmetry. apply (C83_state_moves W eq); try congruence.
  assert (X : forall A (b : ebehavior W A), on_hook (fun _ _ _ => False) b -> on_hook (along eq) b) by (intros A [| | |f|f] Q; cbn in *; tauto).
  assert (Y : forall A (p : option (eparser W A)), on_custom (fun _ _ _ => False) p -> on_custom (along eq) p) by (intros A [p|] Q; cbn in *; tauto).
  destruct H as (Hb & Hi & Hcb & Hci).
  decompose [and] Hb. decompose [and] Hi. split; [repeat split; now apply X|split; [repeat split; now apply X|split; now apply Y]].
Qed.
Print Assumptions C83_no_closures.

(** The hypotheses are met by a hook that counts the texts, and by one that
    numbers them; the second is not [blind] and its answers show it. *)
Definition numbering : econfig nat :=
  let E := counting (fun _ => None) (fun _ => false) (fun c => [c]) in
  EConfig nat (e_allow_no_space_in_headings E) (e_html_entities E) (eb_blockquote E) (eb_github_alert E) (eb_heading_v1 E)
    (eb_heading_v2 E) (eb_thematic_break E) (eb_list E) (eb_code_block E) (eb_html_block E) (eb_footnote_definition E)
    (eb_link_definition E) (eb_table E) (eb_paragraph E) (ei_autolink E) (ei_link E) (ei_footnote_reference E)
    (ei_reference_link E) (ei_hard_newline E) (ei_image E) (ei_code_span E) (ei_emphasis E) (ei_strikethrough E)
    (EMap (fun t n => (IText [N.of_nat (48 + n)], S n))) None None (e_punct_table E) (e_upper_table E).
Example C83_counting_blind : every_closure blind (counting (fun _ => None) (fun _ => false) (fun c => [c])).
Proof. repeat split; intros x w w'; reflexivity. Qed.
Example C83_counting_grows : every_closure (along le) (counting (fun _ => None) (fun _ => false) (fun c => [c])).
Proof. repeat split; intros x w; cbn; lia. Qed.
Example C83_numbering_total : e_custom_block numbering = None /\ e_custom_inline numbering = None /\ ei_text numbering <> EIgnore /\ eb_paragraph numbering <> EIgnore.
Proof. repeat split; discriminate. Qed.
Example C83_numbering_run : eparse_markdown numbering (lit "a `b` c" ++ [10%N; 10%N] ++ lit "d") 0 =
  (Ok [] (Document [BParagraph [IText (lit "0"); ICode (lit "b"); IText (lit "1")]; BParagraph [IText (lit "2")]]), 3).
Proof. vm_compute. reflexivity. Qed.

(** ** C84: a hook on an element is called exactly once for each such element
    of the document.

    At least once: [observer] is the default configuration with a hook on every
    kind, each writing the element it is given into a log and returning it
    unchanged.  Texts are merged with their neighbours after the hook has seen
    the pieces, the hook for alerts is never called (C63), and of [***a***]
    only the outer element is seen; every other element of the document, at any
    depth, is in the log. *)
Definition log_hook {A} (mark : A -> inline + block) : ebehavior (list (inline + block)) A :=
  EMap (fun a log => (a, log ++ [mark a])).
Definition observer (entities : str -> option str) (punct : char -> bool) (upper : char -> str) : econfig (list (inline + block)) :=
  {| e_allow_no_space_in_headings := false;
     e_html_entities := entities;
     eb_blockquote := log_hook inr; eb_github_alert := log_hook inr; eb_heading_v1 := log_hook inr;
     eb_heading_v2 := log_hook inr; eb_thematic_break := log_hook inr; eb_list := log_hook inr;
     eb_code_block := log_hook inr; eb_html_block := log_hook inr; eb_footnote_definition := log_hook inr;
     eb_link_definition := log_hook inr; eb_table := log_hook inr; eb_paragraph := log_hook inr;
     ei_autolink := log_hook inl; ei_link := log_hook inl; ei_footnote_reference := log_hook inl;
     ei_reference_link := log_hook inl; ei_hard_newline := log_hook inl; ei_image := log_hook inl;
     ei_code_span := log_hook inl; ei_emphasis := log_hook inl; ei_strikethrough := log_hook inl;
     ei_text := log_hook inl;
     e_custom_block := None; e_custom_inline := None;
     e_punct_table := punct; e_upper_table := upper |}.
Definition shown_inline (i : inline) : Prop := match i with IText _ | IEmphasis _ | IEmpty => False | _ => True end.
Definition shown_block (b : block) : Prop := match b with BGitHubAlert _ | BEmpty => False | _ => True end.
Definition Qi (i : inline) (log : list (inline + block)) : Prop := shown_inline i -> In (inl i) log.
Definition Qb (b : block) (log : list (inline + block)) : Prop := shown_block b -> In (inr b) log.
Lemma Qi_stable : forall i, stable (@incl (inline + block)) (Qi i).
Proof. intros i w w' R H S. apply R, H, S. Qed.
Lemma Qb_stable : forall b, stable (@incl (inline + block)) (Qb b).
Proof. intros i w w' R H S. apply R, H, S. Qed.
Lemma log_i : forall K, hook_i Qi K (log_hook inl).
Proof.
  intros K a w _ H. cbn [fst snd]. apply ni_intro; [intros _; apply in_or_app; right; now left|].
  eapply (s_nis (@incl (inline + block)) Qi Qi_stable); [apply incl_appl, incl_refl|exact H].
Qed.
Lemma log_b : forall K, hook_b Qi Qb K (log_hook inr).
Proof.
  intros K a w _ H1 H2. cbn [fst snd]. apply nb_intro; [intros _; apply in_or_app; right; now left| |].
  - eapply (s_nis (@incl (inline + block)) Qi Qi_stable); [apply incl_appl, incl_refl|exact H1].
  - eapply (s_nbs (@incl (inline + block)) Qi Qb Qi_stable Qb_stable); [apply incl_appl, incl_refl|exact H2].
Qed.
Lemma observer_same : forall entities punct upper s w, fst (eparse_markdown (observer entities punct upper) s w) = parse_markdown (default_config entities punct upper) s.
Proof. intros. apply rrel_eq, sim_parse; try reflexivity; cbn; repeat split; auto. Qed.
Theorem C84_seen_partial : forall entities punct upper s d, parse_markdown (default_config entities punct upper) s = Ok [] d ->
  exists log, eparse_markdown (observer entities punct upper) s [] = (Ok [] d, log)
    /\ (forall i, In i (doc_inlines d) -> shown_inline i -> In (inl i) log)
    /\ (forall b, In b (doc_blocks d) -> shown_block b -> In (inr b) log).
Proof.
  intros entities punct upper s d H. rewrite <- (observer_same entities punct upper s []) in H.
  destruct (eparse_markdown (observer entities punct upper) s []) as [x log] eqn:Q. cbn [fst] in H. subst x. exists log. split; [reflexivity|].
  assert (G : alls (nb Qi Qb) (d_blocks d) log).
  { refine (gv_parse (@incl (inline + block)) _ _ Qi Qb Qi_stable Qb_stable (observer entities punct upper) _ eq_refl eq_refl _ _ _ _ _
      (log_i _) (log_i _) (log_i _) (log_i _) (log_i _) (log_i _) (log_i _) (log_i _) (log_i _) (log_i _)
      (log_b _) (log_b _) (log_b _) (log_b _) (log_b _) (log_b _) (log_b _) (log_b _) (log_b _) (log_b _) (log_b _) s [] [] d log Q);
      try (intros; intro X; contradiction X).
    - exact (@incl_refl _).
    - exact (@incl_tran _).
    - unfold config_moves. cbn. repeat split; intros a w; cbn; apply incl_appl, incl_refl. }
  assert (B : forall b, In b (doc_blocks d) -> Qb b log /\ alls (ni Qi) (block_inlines b) log).
  { intros b J. apply in_flat_map in J. destruct J as (t & J1 & J2). unfold alls in G. rewrite Forall_forall in G. specialize (G t J1). unfold nb in G. rewrite Forall_forall in G. exact (G b J2). }
  split.
  - intros i J S. apply in_flat_map in J. destruct J as (b & J1 & J2). apply in_flat_map in J2. destruct J2 as (t & J2 & J3).
    destruct (B b J1) as [_ X]. unfold alls in X. rewrite Forall_forall in X. specialize (X t J2). unfold ni in X. rewrite Forall_forall in X. exact (X i J3 S).
  - intros b J S. exact (proj1 (B b J) S).
Qed.
Print Assumptions C84_seen_partial.
(** the log of a quote: each element of its paragraph appears twice *)
Example C84_seen_example :
  let par := BParagraph [IEmphasis [IText (lit "a")]; IText (lit " "); ICode (lit "b")] in
  let once := [inl (IText (lit "a")); inl (IEmphasis [IText (lit "a")]); inl (IText (lit " ")); inl (ICode (lit "b")); inr par] in
  eparse_markdown (observer (fun _ => None) (fun _ => false) (fun c => [c])) (lit "> *a* `b`") []
    = (Ok [] (Document [BBlockQuote [par]]), once ++ once ++ [inr (BBlockQuote [par])]).
Proof. vm_compute. reflexivity. Qed.

(** At most once: refuted, and no polynomial in the size of the document
    bounds the number of calls.  [counting] returns every text unchanged and
    counts; the documents below have a single text. *)
Local Notation count entities punct upper s := (snd (eparse_markdown (counting entities punct upper) s 0)).
Definition quoted_a (n : nat) : str := rep n (ch ">") ++ lit "a".
Fixpoint in_quotes (n : nat) (b : block) : block := match n with O => b | S n => BBlockQuote [in_quotes n b] end.
Lemma quotes_rep : forall n, quotes n = quoted_a n.
Proof. induction n as [|n IH]; [reflexivity|]. unfold quoted_a in *. cbn. now rewrite IH. Qed.
Lemma quotes_in_quotes : forall n, quotes_block n = in_quotes n (BParagraph [IText (lit "a")]).
Proof. induction n as [|n IH]; [reflexivity|]. cbn. now rewrite IH. Qed.

(** n quotes around a letter: at least 2^n calls *)
Theorem C84_quotes_refuted : forall entities punct upper n,
  fst (eparse_markdown (counting entities punct upper) (quoted_a n) 0)
    = Ok [] (Document [in_quotes n (BParagraph [IText (lit "a")])])
  /\ 2 ^ n <= count entities punct upper (quoted_a n).
Proof.
  intros entities punct upper n. rewrite <- quotes_rep, counted_same, <- quotes_in_quotes. split.
  - apply quotes_document.
  - apply (quotes_doc entities punct upper n 0).
Qed.
Print Assumptions C84_quotes_refuted.
(** n+1 opening brackets: at least 8^n calls *)
Theorem C84_brackets_refuted : forall entities punct upper n, n < 1000 ->
  fst (eparse_markdown (counting entities punct upper) (rep (S n) (ch "[")) 0)
    = Ok [] (Document [BParagraph [IText (rep (S n) (ch "["))]])
  /\ 8 ^ n <= count entities punct upper (rep (S n) (ch "[")).
Proof.
  intros entities punct upper n L. rewrite counted_same. split.
  - now apply br_document.
  - now apply (br_doc entities punct upper n 0).
Qed.
Print Assumptions C84_brackets_refuted.
(** already a single reference is seen five times, and a link in a line of
    text eight times *)
Theorem C84_reference_refuted :
  eparse_markdown (counting (fun _ => None) (fun _ => false) (fun c => [c])) (lit "[a]") 0
    = (Ok [] (Document [BParagraph [ILinkReference (LinkReference [IText (lit "a")] [IText (lit "a")])]]), 5)
  /\ snd (eparse_markdown (counting (fun _ => None) (fun _ => false) (fun c => [c])) (lit "x [a](b)") 0) = 8.
Proof. vm_compute. split; reflexivity. Qed.
Print Assumptions C84_reference_refuted.
