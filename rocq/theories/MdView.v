(** The documents built by the Markdown printer denote the view. *)
From Coq Require Import String Lia.
From Verif Require Export MdFacts.
Import ListNotations.
Open Scope list_scope.

(** ** Tokens *)
Lemma token_word w l : Forall (fun c => is_whitespace c = false) w -> w <> [] ->
  (forall v l', l <> Some v :: l') -> fold_right token_char l w = Some w :: l.
Proof.
  intros F N H. induction F as [|c w C F IH]; [congruence|]. cbn. unfold token_char at 1. rewrite C.
  destruct w as [|d w].
  - cbn. destruct l as [|[v|] l]; auto. exfalso. eapply H; reflexivity.
  - rewrite IH by discriminate. reflexivity.
Qed.
Lemma token_ws c l : is_whitespace c = true -> token_char c l = token_char c_sp l.
Proof. unfold token_char. now intros ->. Qed.
Lemma token_sp_head l : forall v l', token_char c_sp l <> Some v :: l'.
Proof. intros v l'. unfold token_char. cbn. destruct l as [|[?|] ?]; discriminate. Qed.
Lemma split_tokens s :
  (forall w r, Forall (fun c => is_whitespace c = false) w -> w <> [] ->
     rev (split_spaces_go s (Some w) r) = rev r ++ fold_right token_char (tokens s) (rev w)) /\
  (forall r, rev (split_spaces_go s None (None :: r)) = rev r ++ token_char c_sp (tokens s)) /\
  rev (split_spaces_go s None []) = tokens s.
Proof.
  induction s as [|c s (IH1 & IH2 & IH3)]; (split; [|split]); try reflexivity.
  - intros w r F N. cbn. rewrite token_word; auto.
    + now apply Forall_rev.
    + destruct w; [congruence|]. cbn. destruct (rev w); discriminate.
    + discriminate.
  - intros w r F N. cbn [split_spaces_go]. destruct (is_whitespace c) eqn:C.
    + rewrite IH2. cbn [rev]. rewrite <- app_assoc. f_equal.
      change (tokens (c :: s)) with (token_char c (tokens s)). rewrite (token_ws c) by auto.
      rewrite token_word; auto.
      * now apply Forall_rev.
      * destruct w; [congruence|]. cbn. destruct (rev w); discriminate.
      * apply token_sp_head.
    + rewrite IH1; [|constructor; auto|discriminate]. f_equal. cbn [rev]. rewrite fold_right_app. reflexivity.
  - intros r. cbn [split_spaces_go]. change (tokens (c :: s)) with (token_char c (tokens s)).
    destruct (is_whitespace c) eqn:C.
    + rewrite IH2. f_equal. rewrite (token_ws c) by auto. unfold token_char. cbn.
      destruct (tokens s) as [|[?|] ?]; reflexivity.
    + rewrite IH1; [|auto|discriminate]. cbn [rev]. rewrite <- app_assoc. f_equal. cbn [app fold_right].
      unfold token_char at 3. cbn. unfold token_char. rewrite C. destruct (tokens s) as [|[?|] ?]; reflexivity.
  - cbn [split_spaces_go]. change (tokens (c :: s)) with (token_char c (tokens s)).
    destruct (is_whitespace c) eqn:C.
    + rewrite IH2. cbn. now rewrite (token_ws c).
    + rewrite IH1; [|auto|discriminate]. reflexivity.
Qed.
Lemma tokens_nl s : tokens (nl_to_sp s) = tokens s.
Proof.
  induction s as [|c s IH]; [reflexivity|]. cbn [nl_to_sp map]. fold (nl_to_sp s).
  change (tokens (?c :: ?l)) with (token_char c (tokens l)). rewrite IH. destruct (N.eqb_spec c c_nl) as [->|]; [|reflexivity]. now rewrite (token_ws c_nl).
Qed.
Lemma split_with_spaces_tokens s : split_with_spaces (nl_to_sp s) = tokens s.
Proof. rewrite <- (tokens_nl s). apply split_tokens. Qed.

Fixpoint no_double (l : list (option str)) : Prop :=
  match l with
  | None :: (None :: _) => False
  | _ :: l' => no_double l'
  | [] => True
  end.
Lemma tokens_no_double s : no_double (tokens s).
Proof.
  induction s as [|c s IH]; [exact I|]. change (tokens (c :: s)) with (token_char c (tokens s)).
  unfold token_char. destruct (is_whitespace c); destruct (tokens s) as [|[?|] [|[?|] ?]]; cbn in *; tauto.
Qed.

Section View.
Variable uwidth : str -> nat.
Variable upper : char -> str.
Variable udigit : char -> bool.
Variable big : nat.
Variable cw : nat.
Notation Den := (Den uwidth cw).

Lemma at_app i x y : at_ i (x ++ y) = at_ i x ++ at_ i y.
Proof. apply map_app. Qed.
Lemma at_solid i x : at_ i x = [] \/ solid i (at_ i x).
Proof. destruct x as [|p x]; [now left|right]. cbn. now exists p, (at_ i x). Qed.
Lemma Den_at i a b x y : Den i a (at_ i x) -> Den i b (at_ i y) -> Den i (append a b) (at_ i (x ++ y)).
Proof. intros A B. rewrite at_app. apply Den_append; auto. destruct (at_solid i y); auto. Qed.
Lemma Den_word i s : Den i (DText s) (at_ i [Word s]).
Proof. apply Den_text. Qed.
Lemma Den_newline i : Den i DHardline (at_ i [Newline]).
Proof. apply Den_line. Qed.
Lemma Den_concat i l ls : Forall2 (fun d x => Den i d (at_ i x)) l ls ->
  Den i (concat_docs l) (at_ i (concat ls)).
Proof.
  intro F. unfold concat_docs.
  assert (G : forall acc x, Den i acc (at_ i x) -> Den i (fold_left append l acc) (at_ i (x ++ concat ls))).
  { induction F as [|d y l ls A F IH]; intros acc x D; cbn.
    - now rewrite app_nil_r.
    - rewrite app_assoc. apply IH. now apply Den_at. }
  apply (G DNil []). apply Den_nil.
Qed.
Lemma Den_flat_map {A} i (f : A -> doc) (g : A -> list piece) l :
  Forall (fun x => Den i (f x) (at_ i (g x))) l ->
  Den i (concat_docs (map f l)) (at_ i (flat_map g l)).
Proof.
  intro F. rewrite flat_map_concat_map. apply Den_concat. induction F; cbn; constructor; auto.
Qed.

(** ** Inlines *)
Lemma Den_safe i l : no_double l -> forall acc x, Den i acc (at_ i x) ->
  Den i (safe_text_go udigit l acc) (at_ i (x ++ flowing udigit l)).
Proof.
  induction l as [|[w|] l IH]; intros N acc x D; cbn [safe_text_go flowing].
  - now rewrite app_nil_r.
  - change (Word w :: ?y) with ([Word w] ++ y). rewrite app_assoc. apply IH.
    + destruct l; exact N || exact I.
    + apply Den_at; [exact D|apply Den_word].
  - match goal with |- context [?p :: flowing _ l] => change (p :: flowing udigit l) with ([p] ++ flowing udigit l) end.
    rewrite app_assoc. apply IH.
    + destruct l as [|[?|] ?]; cbn in N; tauto.
    + apply Den_at; auto. destruct l as [|[w|] l]; cbn [find_next_word].
      * apply Den_soft.
      * unfold is_safe_line_break_before, unsafe. destruct (is_markdown_syntax_at_line_start udigit w); cbn [negb].
        -- apply Den_word.
        -- apply Den_soft.
      * destruct N.
Qed.

Lemma Den_eq i d x y : Den i d (at_ i x) -> x = y -> Den i d (at_ i y).
Proof. now intros D <-. Qed.
Ltac ats := eapply Den_eq; [repeat first
  [ eassumption
  | match goal with
    | |- MdFacts.Den _ _ ?i (append ?a ?b) (at_ ?i _) => eapply (Den_at i a b)
    | |- MdFacts.Den _ _ ?i (DText ?s) (at_ ?i _) => apply (Den_word i s)
    | |- MdFacts.Den _ _ ?i space (at_ ?i _) => apply (Den_word i [c_sp])
    | |- MdFacts.Den _ _ ?i DHardline (at_ ?i _) => apply (Den_newline i)
    | |- MdFacts.Den _ _ ?i DNil (at_ ?i _) => apply (Den_nil _ _ i : Den i DNil (at_ i []))
    end ]
  | cbn [app]; rewrite ?app_nil_r, <- ?app_assoc; reflexivity ].

Lemma Den_inline i wrap x : Den i (md_inline udigit wrap x) (at_ i (inline_view udigit wrap x)).
Proof.
  induction x using inline_ind'; cbn [md_inline inline_view]; try apply Den_word; try apply Den_nil.
  all: try (assert (D := Den_flat_map i (md_inline udigit wrap) (inline_view udigit wrap) _ H)).
  - rewrite split_with_spaces_tokens. destruct wrap.
    + apply (Den_safe i (tokens s) (tokens_no_double s) DNil []). apply Den_nil.
    + unfold fixed. eapply Den_eq.
      * apply (Den_flat_map i _ (fun v => [match v with Some w => Word w | None => Word [c_sp] end])).
        apply Forall_forall. intros [w|] _; apply Den_word.
      * rewrite flat_map_concat_map. induction (tokens s); cbn; congruence.
  - ats.
  - cbn [link_title link_children link_destination]. destruct t; ats.
  - assert (D' := Den_flat_map i (md_inline udigit wrap) (inline_view udigit wrap) _ H0).
    cbn [lr_label lr_text]. destruct (list_eqb inline_eqb l t); ats.
  - destruct im. ats.
  - ats.
  - ats.
  - ats.
Qed.
Lemma Den_inlines i wrap l : Den i (md_inlines udigit wrap l) (at_ i (inlines_view udigit wrap l)).
Proof. apply Den_flat_map. apply Forall_forall. intros x _. apply Den_inline. Qed.

(** ** Layouts without a choice *)
Definition fixed_piece (p : piece) : Prop := match p with Word _ | Newline => True | _ => False end.
Definition fixed_text (p : piece) : str := match p with Word s => s | Newline => [c_nl] | _ => [] end.
Lemma laid_fixed l o : Forall fixed_piece l -> laid None (at_ 0 l) o -> o = flat_map fixed_text l.
Proof.
  intro F. revert o. induction F as [|p l P F IH]; intros o L; cbn [at_ map] in L.
  - now inversion L.
  - destruct p; try destruct P; inversion L; subst; cbn.
    + f_equal. auto.
    + f_equal. replace (next_indent None 0 (map (pair 0) l)) with 0 by (destruct l; reflexivity). cbn.
      auto.
Qed.
Definition word_piece (p : piece) : Prop := match p with Word _ => True | _ => False end.
Lemma words_only x : Forall word_piece (inline_view udigit false x).
Proof.
  assert (G : forall l, Forall (fun x => Forall word_piece (inline_view udigit false x)) l ->
     Forall word_piece (flat_map (inline_view udigit false) l)).
  { induction 1; cbn; auto. apply Forall_app; auto. }
  induction x using inline_ind'; cbn [inline_view]; try (destruct im).
  2-13: repeat first [exact I | apply Forall_nil | apply Forall_cons | apply Forall_app; split | apply G; assumption
    | match goal with |- context [match ?t with Some _ => _ | None => _ end] => destruct t
      | |- context [if ?t then _ else _] => destruct t end].
  apply Forall_forall. intros p I. apply in_map_iff in I as ([w|] & <- & _); exact Logic.I.
Qed.
Lemma words_only_list l : Forall word_piece (inlines_view udigit false l).
Proof.
  unfold inlines_view. induction l; cbn; [constructor|]. apply Forall_app. split; auto. apply words_only.
Qed.
Lemma word_fixed l : Forall word_piece l -> Forall fixed_piece l /\ flat_map fixed_text l = flat_map piece_text l.
Proof.
  induction 1 as [|p l P F [A B]]; cbn; [split; auto|]. destruct p; try destruct P. split; [constructor; auto; exact I|].
  cbn. now f_equal.
Qed.
Lemma render_cell_text c s : render_cell uwidth udigit big c = Some s -> s = one_line udigit c.
Proof.
  intro R. unfold render_cell in R. apply (Den_render _ _ _ _ _ _ (Den_inlines 0 false c)) in R.
  destruct (word_fixed _ (words_only_list c)) as [A B].
  apply laid_fixed in R; auto. now rewrite R, B.
Qed.

(** ** Tables *)
Definition text_of (x : list piece) : str := flat_map fixed_text x.
Lemma text_of_app x y : text_of (x ++ y) = text_of x ++ text_of y.
Proof. apply flat_map_app. Qed.
(** [fixes d s]: [d] leaves no choice and is [s] (or panics) *)
Definition fixes (d : doc) (s : str) : Prop :=
  exists x, Den 0 d (at_ 0 x) /\ Forall fixed_piece x /\ text_of x = s.
Lemma fixes_text s : fixes (DText s) s.
Proof. exists [Word s]. repeat split; [apply Den_word|repeat constructor|]. cbn. apply app_nil_r. Qed.
Lemma fixes_line : fixes DHardline [c_nl].
Proof. exists [Newline]. repeat split; [apply Den_newline|repeat constructor]. Qed.
Lemma fixes_append a b s t : fixes a s -> fixes b t -> fixes (append a b) (s ++ t).
Proof.
  intros (x & A & B & <-) (y & A' & B' & <-). exists (x ++ y). repeat split.
  - now apply Den_at.
  - now apply Forall_app.
  - apply text_of_app.
Qed.
Lemma fixes_panic s : fixes DPanic s.
Proof. exists [Word s]. repeat split; [apply Den_panic|repeat constructor|cbn; apply app_nil_r]. Qed.
Lemma fixes_render d s w o : fixes d s -> render uwidth w d = Some o -> o = s.
Proof. intros (x & A & B & <-) R. apply (Den_render _ _ _ _ _ _ A) in R. now apply laid_fixed in R. Qed.
Lemma fixes_intersperse sep ss l ls : fixes sep ss -> Forall2 fixes l ls -> l <> [] ->
  fixes (intersperse l sep) (join ss ls).
Proof.
  intros S F N. destruct F as [|d s l ls A F]; [congruence|]. clear N. cbn [intersperse]. rewrite join_flat.
  revert d s A. induction F as [|e t l ls B F IH]; intros d s A; cbn [fold_left flat_map].
  - now rewrite app_nil_r.
  - rewrite <- app_assoc, (app_assoc s). rewrite app_assoc. apply IH.
    apply fixes_append; [apply fixes_append|]; auto.
Qed.

Fixpoint cells_from {A} (g : nat -> A -> str) (i : nat) (l : list A) : list str :=
  match l with [] => [] | y :: l' => g i y :: cells_from g (S i) l' end.
Lemma fixes_row {A} (f : nat -> A -> doc) g : (forall i y, fixes (f i y) (g i y)) ->
  forall l i acc s, fixes acc s -> 0 < i ->
  fixes (row_go f i l acc) (s ++ flat_map (fun y => lit " | " ++ y) (cells_from g i l)).
Proof.
  intro H. induction l as [|y l IH]; intros i acc s D L; cbn [row_go cells_from flat_map].
  - now rewrite app_nil_r.
  - assert ((0 <? i) = true) as -> by (now apply Nat.ltb_lt).
    rewrite app_assoc. apply IH; [|lia]. rewrite app_assoc. apply fixes_append; auto. apply fixes_append; auto. apply fixes_text.
Qed.
Lemma fixes_row0 {A} (f : nat -> A -> doc) g l : (forall i y, fixes (f i y) (g i y)) ->
  fixes (append (row_go f 0 l (DText (lit "| "))) (DText (lit " |"))) (table_line (cells_from g 0 l)).
Proof.
  intro H. unfold table_line. rewrite app_assoc. apply fixes_append; [|apply fixes_text].
  destruct l as [|y l]; cbn [row_go cells_from].
  - rewrite app_nil_r. apply fixes_text.
  - rewrite join_flat, app_assoc. apply fixes_row; auto. apply fixes_append; auto. apply fixes_text.
Qed.
Lemma cells_from_seq {A} (d : A) g l : forall i,
  cells_from g i l = map (fun k => g k (nth (k - i) l d)) (seq i (List.length l)).
Proof.
  induction l as [|y l IH]; intro i; [reflexivity|]. cbn [cells_from length seq map].
  rewrite Nat.sub_diag. cbn [nth]. f_equal. rewrite IH. apply map_ext_in. intros k K.
  apply in_seq in K. f_equal. replace (k - i) with (S (k - S i)) by lia. reflexivity.
Qed.

Lemma fixes_cell s w al : fixes (cell_to_doc s w al) (cell_pad al w s).
Proof.
  unfold cell_to_doc, cell_pad. destruct (w <? List.length s); [apply fixes_panic|].
  destruct al; apply fixes_text.
Qed.
Lemma fixes_delimiter al w : least_width al <= w -> fixes (alignment_to_doc al w) (delimiter al w).
Proof.
  intro L. unfold alignment_to_doc, delimiter. destruct al; cbn [least_width] in L.
  - replace (if 1 <? w then w else 1) with w; [apply fixes_text|]. destruct (Nat.ltb_spec 1 w); lia.
  - replace (if 1 <? w then w else 1) with w; [apply fixes_text|]. destruct (Nat.ltb_spec 1 w); lia.
  - replace (if 2 <? w then w - 2 else 1) with (w - 2). 2: destruct (Nat.ltb_spec 2 w); lia.
    rewrite app_assoc. repeat apply fixes_append; apply fixes_text.
  - replace (if 1 <? w then w - 1 else 1) with (w - 1). 2: destruct (Nat.ltb_spec 1 w); lia.
    repeat apply fixes_append; apply fixes_text.
Qed.

Lemma all_some_map {A B} (f : A -> option B) (g : A -> B) l r :
  (forall x y, f x = Some y -> y = g x) -> all_some (map f l) = Some r -> r = map g l.
Proof.
  intro H. revert r. induction l as [|x l IH]; intros r E; cbn in *; [congruence|].
  destruct (f x) as [y|] eqn:F; [|discriminate]. destruct (all_some (map f l)) as [r'|]; [|discriminate].
  injection E as <-. rewrite (H _ _ F), (IH _ eq_refl). reflexivity.
Qed.
Lemma table_content_text t c : table_content uwidth udigit big t = Some c ->
  c = map (map (one_line udigit)) (t_rows t).
Proof.
  apply all_some_map. intros row r. apply all_some_map. intros x y. apply render_cell_text.
Qed.
Lemma content_width rows k :
  column_content_width (map (map (one_line udigit)) rows) k
  = list_max (map (fun row => List.length (one_line udigit (nth k row []))) rows).
Proof.
  unfold column_content_width.
  assert (G : forall rows m, fold_left (fun max_width row => match nth_error row k with
      | Some cell => if max_width <? List.length cell then List.length cell else max_width
      | None => max_width end) (map (map (one_line udigit)) rows) m
    = Nat.max m (list_max (map (fun row => List.length (one_line udigit (nth k row []))) rows))).
  { clear rows. induction rows as [|r rows IH]; intro m; cbn [map fold_left list_max fold_right]; [lia|].
    rewrite IH. change (fold_right Nat.max 0 ?l) with (list_max l).
    rewrite nth_error_map. destruct (nth_error r k) as [c|] eqn:E; cbn [option_map].
    - rewrite (nth_error_nth _ _ [] E). 
      set (z := list_max _). set (y := List.length (one_line udigit c)). change (Init.Nat.max y z) with (Nat.max y z).
      destruct (Nat.ltb_spec m y); lia.
    - apply nth_error_None in E. rewrite nth_overflow by lia. cbn. lia. }
  rewrite G. lia.
Qed.
Lemma column_width_widest t k : column_width (map (map (one_line udigit)) (t_rows t)) (t_alignments t) k = widest udigit t k.
Proof.
  unfold column_width, widest. rewrite content_width. cbn [list_max fold_right map].
  change (fold_right Nat.max 0 ?l) with (list_max l).
  set (m := list_max _). 
  replace (match nth_error (t_alignments t) k with
    | Some ALeft => 1 | Some ACenter => 3 | Some ARight => 2 | Some ANone => 1 | None => 1 end)
    with (least_width (nth k (t_alignments t) ANone)).
  - destruct (Nat.ltb_spec (least_width (nth k (t_alignments t) ANone)) m); lia.
  - destruct (nth_error (t_alignments t) k) as [a|] eqn:E.
    + rewrite (nth_error_nth _ _ _ E). destruct a; reflexivity.
    + apply nth_error_None in E. now rewrite nth_overflow by lia.
Qed.
Lemma nth_width_chars t k :
  nth_width (columns_width (map (map (one_line udigit)) (t_rows t)) (t_alignments t)) k = column_chars udigit t k.
Proof.
  unfold nth_width, columns_width, column_chars.
  replace (List.length (hd [] (map (map (one_line udigit)) (t_rows t)))) with (List.length (hd [] (t_rows t)))
    by (destruct (t_rows t); cbn; [|rewrite map_length]; reflexivity).
  destruct (Nat.ltb_spec k (List.length (hd [] (t_rows t)))) as [L|L].
  - rewrite <- column_width_widest. 
    rewrite nth_indep with (d' := column_width (map (map (one_line udigit)) (t_rows t)) (t_alignments t) 0)
      by (now rewrite map_length, seq_length).
    rewrite map_nth, seq_nth by assumption. reflexivity.
  - apply nth_overflow. now rewrite map_length, seq_length.
Qed.
Lemma column_chars_least t k : least_width (nth k (t_alignments t) ANone) <= column_chars udigit t k.
Proof.
  unfold column_chars. destruct (k <? _).
  - unfold widest. cbn [list_max fold_right]. lia.
  - destruct (nth k (t_alignments t) ANone); cbn; lia.
Qed.

Lemma fixes_row_to_doc t row :
  fixes (row_to_doc (map (one_line udigit) row)
           (columns_width (map (map (one_line udigit)) (t_rows t)) (t_alignments t)) (t_alignments t))
        (table_line (table_row_cells udigit t row)).
Proof.
  unfold row_to_doc. eassert (E : table_line (table_row_cells udigit t row) = _); [|rewrite E; apply fixes_row0].
  - f_equal. unfold table_row_cells.
    instantiate (1 := fun k s => cell_pad (nth k (t_alignments t) ANone) (column_chars udigit t k) s).
    rewrite (cells_from_seq (one_line udigit [])). rewrite map_length. apply map_ext. intro k.
    rewrite Nat.sub_0_r. now rewrite map_nth.
  - intros k s. rewrite nth_width_chars. apply fixes_cell.
Qed.
Lemma fixes_alignments t :
  fixes (alignments_row_to_doc (t_alignments t)
           (columns_width (map (map (one_line udigit)) (t_rows t)) (t_alignments t)))
        (table_line (delimiter_cells udigit t)).
Proof.
  unfold alignments_row_to_doc.
  assert (G : forall f g l, (forall k, k < List.length l -> fixes (f k (nth k l ANone)) (g k (nth k l ANone))) ->
     fixes (append (row_go f 0 l (DText (lit "| "))) (DText (lit " |"))) (table_line (cells_from g 0 l))).
  { intros f g l H.
    assert (E : forall i m acc, l = m ++ skipn i l -> List.length m = i -> 
       row_go f i (skipn i l) acc = row_go (fun k _ => if k <? List.length l then f k (nth k l ANone) else DPanic) i (skipn i l) acc).
    { intros i m. remember (skipn i l) as q eqn:Q. clear Q. revert i m.
      induction q as [|y q IH]; intros i m acc E L; [reflexivity|]. cbn [row_go].
      assert (Y : nth i l ANone = y).
      { rewrite E, app_nth2, L, Nat.sub_diag; [reflexivity|lia]. }
      assert (B : (i <? List.length l) = true). { apply Nat.ltb_lt. rewrite E, app_length. cbn. lia. }
      rewrite B, Y. rewrite (IH (S i) (m ++ [y])); [reflexivity|now rewrite <- app_assoc|rewrite app_length; cbn; lia]. }
    specialize (E 0 [] (DText (lit "| ")) eq_refl eq_refl). cbn [skipn] in E. rewrite E.
    replace (cells_from g 0 l) with (cells_from (fun k (_ : alignment) => g k (nth k l ANone)) 0 l).
    - apply fixes_row0. intros k _. destruct (Nat.ltb_spec k (List.length l)); [now apply H|apply fixes_panic].
    - rewrite !(cells_from_seq ANone). apply map_ext. intro k. now rewrite Nat.sub_0_r. }
  replace (delimiter_cells udigit t) with (cells_from (fun k al => delimiter al (column_chars udigit t k)) 0 (t_alignments t)).
  - apply G. intros k K. rewrite nth_width_chars. apply fixes_delimiter. apply column_chars_least.
  - rewrite (cells_from_seq ANone). apply map_ext. intro k. now rewrite Nat.sub_0_r.
Qed.

Lemma Den_table i t : Den i (md_table uwidth udigit big t)
  (match t_rows t with [] => [] | _ => [(i, Word (join [c_nl] (table_lines udigit t)))] end).
Proof.
  unfold md_table. destruct (t_rows t) as [|header body] eqn:R; [apply Den_nil|].
  destruct (table_content uwidth udigit big t) as [c|] eqn:C; [|apply Den_panic].
  apply table_content_text in C. subst c.
  destruct render as [s|] eqn:E; [|apply Den_panic].
  apply (fixes_render _ (join [c_nl] (table_lines udigit t))) in E.
  - subst s. apply Den_text.
  - apply fixes_intersperse; [apply fixes_line| |discriminate].
    unfold table_lines. rewrite R. constructor; [|constructor].
    + rewrite <- R. cbn [map hd]. replace (hd [] (map (map (one_line udigit)) (t_rows t))) with (map (one_line udigit) header)
        by (rewrite R; reflexivity). apply fixes_row_to_doc.
    + rewrite <- R. apply fixes_alignments.
    + cbn [map tl]. clear E. replace (map (one_line udigit) header :: map (map (one_line udigit)) body)
        with (map (map (one_line udigit)) (t_rows t)) by (rewrite R; reflexivity).
      clear R. induction body as [|row body IH]; cbn [map]; constructor; auto. apply fixes_row_to_doc.
Qed.

(** ** Blocks *)
Section Blocks.
Variable config : md_config.
Hypothesis config_cw : md_width config = cw.

Lemma Den_append_ok i a b pa pb : Den i a pa -> Den i b pb -> pb = [] \/ solid i pb -> Den i (append a b) (pa ++ pb).
Proof. intros A B C. apply Den_append; tauto. Qed.
Lemma Den_separator i acc pacc b : Den i acc pacc ->
  Den i (match b with
         | BList _ => if md_empty_line_before_list config then append (append acc DHardline) DHardline else append acc DHardline
         | _ => append (append acc DHardline) DHardline
         end) (pacc ++ at_ i (separator config b)).
Proof.
  intro A.
  assert (One : Den i (append acc DHardline) (pacc ++ at_ i [Newline])).
  { apply Den_append_ok; auto; [apply Den_newline|right; now exists Newline, []]. }
  assert (Two : Den i (append (append acc DHardline) DHardline) (pacc ++ at_ i [Newline; Newline])).
  { change (at_ i [Newline; Newline]) with (at_ i [Newline] ++ at_ i [Newline]). rewrite app_assoc.
    apply Den_append_ok; auto; [apply Den_newline|right; now exists Newline, []]. }
  destruct b; auto. cbn [separator]. destruct (md_empty_line_before_list config); auto.
Qed.
Definition good (i : nat) (d : doc) (ps : pieces) : Prop := Den i d ps /\ (ps = [] \/ solid i ps).
Lemma Den_blocks_go i l : Forall (fun '(b, d, ps) => good i d ps) l -> forall acc pacc, Den i acc pacc ->
  Den i (blocks_go config acc false (map fst l)) (pacc ++ separated config i (map (fun '(b, d, ps) => (b, ps)) l)).
Proof.
  induction 1 as [|[[b d] ps] l [D S] F IH]; intros acc pacc A; cbn [map fst blocks_go separated].
  - now rewrite app_nil_r.
  - rewrite !app_assoc. rewrite <- app_assoc. rewrite app_assoc. apply IH. apply Den_append_ok; auto. now apply Den_separator.
Qed.
Lemma Den_blocks_doc i l : Forall (fun '(b, d, ps) => good i d ps) l ->
  Den i (blocks_doc config (map fst l)) (blocks_pieces config i (map (fun '(b, d, ps) => (b, ps)) l)).
Proof.
  unfold blocks_doc, blocks_pieces. destruct 1 as [|[[b d] ps] l [D S] F]; cbn [map fst blocks_go]; [apply Den_nil|].
  change (append DNil d) with d. apply Den_blocks_go; auto.
Qed.
Lemma blocks_pieces_solid i (l : list (block * pieces)) : Forall (fun x => snd x = [] \/ solid i (snd x)) l ->
  blocks_pieces config i l = [] \/ solid i (blocks_pieces config i l).
Proof.
  destruct 1 as [|[b ps] l [E|(p & q & E)] F]; cbn in *; auto; subst ps.
  - destruct l as [|[c qs] l]; [now left|right]. cbn. destruct c; cbn; try (eexists; eexists; reflexivity).
    destruct (md_empty_line_before_list config); cbn; eexists; eexists; reflexivity.
  - right. cbn. eexists; eexists; reflexivity.
Qed.

Lemma Den_task i t acc x : Den i acc (at_ i x) ->
  Den i (append acc (match t with
    | Some Complete => append (DText (lit "[X]")) space
    | Some Incomplete => append (DText (lit "[ ]")) space
    | None => DNil
    end)) (at_ i (x ++ task_view t)).
Proof. intro A. destruct t as [[|]|]; apply Den_at; auto; try ats. Qed.
Lemma task_quiet i a b t : quiet (at_ i ([a; b; Word [c_sp]] ++ task_view t)).
Proof.
  unfold quiet. destruct t as [[|]|]; cbn; exists i, [c_sp].
  - now exists [(i, a); (i, b); (i, Word [c_sp]); (i, Word (lit "[ ]"))].
  - now exists [(i, a); (i, b); (i, Word [c_sp]); (i, Word (lit "[X]"))].
  - now exists [(i, a); (i, b)].
Qed.
Lemma Den_item i kind counter m n t d ps : Den (i + n) d ps -> item_marker kind counter = m ->
  Den i (item_doc config kind counter n t d)
    (at_ i ([Word (rep (md_spaces_before_list_item config) c_sp); Word m; Word [c_sp]] ++ task_view t) ++ ps).
Proof.
  intros D <-. unfold item_doc. apply Den_append.
  - apply Den_task. ats.
  - apply Den_group. apply Den_nest. exact D.
  - right; right. apply task_quiet.
Qed.
Lemma never_fold l : forall acc, never uwidth acc ->
  never uwidth (fold_left (fun acc y => append (append acc DHardline) y) l acc).
Proof. induction l; cbn; auto. intros acc N. apply IHl. now apply never_append_l, never_append_l. Qed.
Definition counter_at (kind : list_kind) (k : nat) : N :=
  match kind with Ordered start => (start + N.of_nat k)%N | Bullet _ => 0%N end.
Lemma counter_marker kind k : item_marker kind (counter_at kind k) = marker kind k.
Proof. destruct kind as [start|[ | | ]]; reflexivity. Qed.
Lemma items_go_cons kind k n t d l :
  items_go config kind (counter_at kind k) n ((t, d) :: l)
  = (match kind with Ordered _ => if (counter_at kind k <? u64_max)%N then
       item_doc config kind (counter_at kind k) n t d :: items_go config kind (counter_at kind (S k)) n l else [DPanic]
     | Bullet _ => item_doc config kind (counter_at kind k) n t d :: items_go config kind (counter_at kind (S k)) n l end).
Proof.
  clear config_cw. destruct kind as [start|b]; cbn [items_go counter_at]; [|reflexivity].
  replace (start + N.of_nat k + 1)%N with (start + N.of_nat (S k))%N by lia. reflexivity.
Qed.
Lemma Den_items i kind n l : Forall (fun '(t, d, ps) => Den (i + n) d ps) l -> forall k acc pacc, Den i acc pacc -> 0 < k ->
  Den i (fold_left (fun acc y => append (append acc DHardline) y)
           (items_go config kind (counter_at kind k) n (map fst l)) acc)
    (pacc ++ item_pieces config i k kind (map (fun '(t, d, ps) => (t, ps)) l)).
Proof.
  induction 1 as [|[[t d] ps] l D F IH]; intros k acc pacc A K; cbn [map fst].
  - cbn. now rewrite app_nil_r.
  - rewrite items_go_cons. cbn [item_pieces].
    assert ((k =? 0) = false) as -> by (apply Nat.eqb_neq; lia).
    assert (G : Den i (fold_left (fun acc y => append (append acc DHardline) y)
       (item_doc config kind (counter_at kind k) n t d :: items_go config kind (counter_at kind (S k)) n (map fst l)) acc)
       (pacc ++ [(i, Newline)] ++ at_ i ([Word (rep (md_spaces_before_list_item config) c_sp); Word (marker kind k); Word [c_sp]] ++ task_view t)
          ++ ps ++ item_pieces config i (S k) kind (map (fun '(t0, _, ps0) => (t0, ps0)) l))).
    { cbn [fold_left]. 
      match goal with |- MdFacts.Den _ _ _ _ (?p ++ ?x ++ ?a ++ ?q ++ ?r) =>
        replace (p ++ x ++ a ++ q ++ r) with (((p ++ x) ++ (a ++ q)) ++ r) by (rewrite <- !app_assoc; reflexivity) end.
      apply IH; [|lia]. apply Den_append_ok.
      - apply Den_append_ok; auto; [apply Den_line|right; now exists Newline, []].
      - apply Den_item; auto. apply counter_marker.
      - right. cbn. eexists; eexists; reflexivity. }
    destruct kind; auto. destruct (_ <? _)%N; auto. cbn [fold_left]. left. apply never_append_r. intros ? ? ? ? ?; reflexivity.
Qed.
Lemma Den_items0 i kind n l : Forall (fun '(t, d, ps) => Den (i + n) d ps) l ->
  Den i (intersperse (items_go config kind (counter_at kind 0) n (map fst l)) DHardline)
    (item_pieces config i 0 kind (map (fun '(t, d, ps) => (t, ps)) l)).
Proof.
  destruct 1 as [|[[t d] ps] l D F]; cbn [map fst]; [apply Den_nil|].
  rewrite items_go_cons. cbn [item_pieces Nat.eqb app].
  assert (G : Den i (intersperse
       (item_doc config kind (counter_at kind 0) n t d :: items_go config kind (counter_at kind 1) n (map fst l)) DHardline)
       (at_ i ([Word (rep (md_spaces_before_list_item config) c_sp); Word (marker kind 0); Word [c_sp]] ++ task_view t)
          ++ ps ++ item_pieces config i 1 kind (map (fun '(t0, _, ps0) => (t0, ps0)) l))).
  { cbn [intersperse]. rewrite app_assoc. apply Den_items; auto. apply Den_item; auto. apply counter_marker. }
  destruct kind; auto. destruct (_ <? _)%N; auto. left. intros ? ? ? ? ?; reflexivity.
Qed.
Lemma Den_list i kind l : Forall (fun '(t, d, ps) => Den (i + content_indent config kind (List.length l)) d ps) l ->
  Den i (md_list config kind (map fst l)) (item_pieces config i 0 kind (map (fun '(t, d, ps) => (t, ps)) l)).
Proof.
  intro F. unfold md_list. destruct kind as [start|b].
  - rewrite map_length. destruct (_ || _); [apply Den_panic|].
    replace start with (counter_at (Ordered start) 0) at 2 by (cbn; lia).
    destruct l as [|x l]; [apply Den_nil|]. set (n := _ + _ + md_spaces_before_list_item config).
    replace (content_indent config (Ordered start) (List.length (x :: l))) with n in F; [now apply Den_items0|].
    unfold n, content_indent. cbn [marker]. rewrite app_length. cbn [List.length lit].
    replace (start + N.of_nat (S (List.length l)) - 1)%N with (start + N.of_nat (S (List.length l) - 1))%N by lia.
    unfold str, char in *. cbn. lia.
  - change 0%N with (counter_at (Bullet b) 0). apply Den_items0.
    replace (2 + md_spaces_before_list_item config) with (content_indent config (Bullet b) (List.length l)); auto.
    unfold content_indent. destruct b; cbn; lia.
Qed.

Lemma Den_quote i d ps : Den 0 d ps -> Den i (DColumn (quote_at uwidth config d)) [(i, Quoted ps)].
Proof.
  intros [N|[D _]].
  - left. intros w j m rest pos. cbn [best]. unfold quote_at. destruct (_ <? _); [reflexivity|].
    unfold render. now rewrite N.
  - right. split; [now constructor|split; discriminate].
Qed.
Lemma intersperse_not_nil x l : intersperse (map DText (x :: l)) DHardline <> DNil.
Proof.
  cbn [map intersperse]. rewrite fold_append_text by discriminate.
  assert (G : forall d, d <> DNil -> fold_left (fun acc y => DAppend (DAppend acc DHardline) y) (map DText l) d <> DNil).
  { induction l; cbn; auto. intros d N. apply IHl. discriminate. }
  apply G. discriminate.
Qed.
Lemma Den_alert i t (bs : list block) d ps : Den 0 d ps ->
  Den i (md_alert uwidth upper t (match bs with [] => false | _ => true end) d)
    ((i, Word (lit "> [!" ++ alert_label upper t ++ lit "]"))
      :: match bs with [] => [] | _ => [(i, Alerted ps)] end).
Proof.
  intro D. unfold md_alert.
  replace (uppercase upper (as_markdown_str t)) with (alert_label upper t) by (destruct t; reflexivity).
  destruct bs; [apply Den_text|].
  destruct render as [s|] eqn:R; [|apply Den_panic].
  destruct D as [N|[D _]]. { unfold render in R. now rewrite N in R. }
  right. split; [eapply den_alert; eassumption|]. split; [discriminate|]. intro E. now apply intersperse_not_nil in E.
Qed.

Lemma block_solid b : forall i, block_view upper udigit config i b = [] \/ solid i (block_view upper udigit config i b).
Proof.
  destruct b; intro i; cbn [block_view]; try apply at_solid; try (right; eexists; eexists; reflexivity); auto.
  - destruct l as [kind [|it l]]; [now left|right]. cbn. eexists; eexists; reflexivity.
  - destruct (t_rows t); [now left|right; eexists; eexists; reflexivity].
  - destruct f. right; eexists; eexists; reflexivity.
  - destruct a. right; eexists; eexists; reflexivity.
Qed.
Lemma map_blocks i l : Forall (fun b => forall i, Den i (md_block uwidth upper udigit big config b) (block_view upper udigit config i b)) l ->
  Den i (blocks_doc config (map (fun x => (x, md_block uwidth upper udigit big config x)) l))
        (blocks_pieces config i (map (fun x => (x, block_view upper udigit config i x)) l)).
Proof.
  intro F.
  assert (G := Den_blocks_doc i (map (fun x => (x, md_block uwidth upper udigit big config x, block_view upper udigit config i x)) l)).
  rewrite !map_map in G. apply G. apply Forall_map. eapply Forall_impl; [|exact F].
  intros b D. split; auto. apply block_solid.
Qed.
Lemma Den_block b : forall i, Den i (md_block uwidth upper udigit big config b) (block_view upper udigit config i b).
Proof.
  induction b using block_ind'; intro i; cbn [md_block block_view]; try apply Den_text; try apply Den_nil.
  - apply Den_inlines.
  - destruct h as [[n|[|]] c]; unfold md_heading; cbn [h_kind h_content heading_view];
    assert (D := Den_inlines i true c); assert (D' := Den_inlines i false c); ats.
  - apply Den_quote. now apply map_blocks.
  - cbn [l_kind l_items].
    assert (G := Den_list i k (map (fun it => (li_task it,
       blocks_doc config (map (fun x => (x, md_block uwidth upper udigit big config x)) (li_blocks it)),
       blocks_pieces config (i + content_indent config k (List.length items)) 
         (map (fun x => (x, block_view upper udigit config (i + content_indent config k (List.length items)) x)) (li_blocks it)))) items)).
    rewrite map_length, !map_map in G. apply G. apply Forall_map. eapply Forall_impl; [|exact H].
    intros it F. now apply map_blocks.
  - destruct c as [[|info] s]; cbn [md_code_block code_view]; [apply Den_word|ats].
  - unfold md_definition, definition_view. assert (D := Den_inlines i true (ld_label d)). ats.
  - apply Den_table.
  - cbn [fd_label fd_blocks]. change ((i, Word ?x) :: ?y) with ([(i, Word x)] ++ y). apply Den_append_ok.
    + apply Den_text.
    + now apply map_blocks.
    + apply blocks_pieces_solid. apply Forall_map. apply Forall_forall. intros x _. apply block_solid.
  - cbn [ga_type ga_blocks]. apply Den_alert. now apply map_blocks.
Qed.
End Blocks.

End View.

Theorem view_laid uwidth upper udigit big config d o : render_markdown uwidth upper udigit big d config = Some o ->
  laid None (document_view upper udigit config d) o.
Proof.
  apply (Den_render uwidth (md_width config)). apply map_blocks. apply Forall_forall. intros b _. now apply Den_block.
Qed.
