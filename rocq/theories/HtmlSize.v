(** Proof of C107: the size of the HTML against the size of the document. *)
From Coq Require Import String Lia.
From Verif Require Import SpecSize SpecHtml HtmlFacts.
Import ListNotations.
Open Scope list_scope.
Local Notation len := (@List.length char).

Ltac slia := unfold str in *; unfold char in *; lia.
Fixpoint dl (d : doc) : nat := match d with DText s => len s | DAppend a b => dl a + dl b | _ => 0 end.
Lemma dl_append a b : dl (append a b) = dl a + dl b.
Proof. destruct a, b; cbn [append dl]; slia. Qed.
Lemma dl_fold l : forall acc, dl (fold_left append l acc) = dl acc + total (map dl l).
Proof. induction l as [|x l IH]; intro acc; cbn [fold_left map total fold_right]; [slia|]. rewrite IH, dl_append. unfold total. slia. Qed.
Lemma dl_concat l : dl (concat_docs l) = total (map dl l).
Proof. unfold concat_docs. now rewrite dl_fold. Qed.
Lemma dl_text d : forall out, dtext d = Some out -> len out = dl d.
Proof.
  induction d; cbn [dtext dl]; intros out E; try discriminate.
  - injection E as <-. reflexivity.
  - now injection E as <-.
  - destruct (dtext d1) as [x|]; [|discriminate]. destruct (dtext d2) as [y|]; [|discriminate]. injection E as <-.
    rewrite app_length. now rewrite (IHd1 _ eq_refl), (IHd2 _ eq_refl).
Qed.
Definition attrs_size (a : list (str * str)) : nat := total (map (fun kv => 4 + len (fst kv) + len (escape (snd kv))) a).
Lemma dl_tag n a d : dl (tag n a d) = 5 + 2 * len n + attrs_size a + dl d.
Proof.
  unfold tag. rewrite !dl_append.
  assert (H : forall l acc, dl (fold_left (fun acc kv => append acc (append (append (append (append (DText (lit " ")) (DText (fst kv))) (DText (lit "=""")))
                    (DText (escape (snd kv)))) (DText (lit """")))) l acc) = dl acc + attrs_size l).
  { unfold attrs_size, total. induction l as [|kv l IH]; intro acc; cbn [fold_left map fold_right]; [slia|]. rewrite IH, !dl_append. cbn [dl lit list_ascii_of_string map List.length]. slia. }
  rewrite H. cbn [dl lit list_ascii_of_string map List.length]. slia.
Qed.
Lemma total_cons x l : total (x :: l) = x + total l. Proof. reflexivity. Qed.
Lemma total_le A (f : A -> nat) g B l : Forall (fun x => f x <= g x * B) l -> total (map f l) <= total (map g l) * B.
Proof. intro H. induction H; cbn [map]; rewrite ?total_cons; [cbn; slia|]. slia. Qed.

(** ** Escaping and numbers *)
Lemma esc1 s : len (escape s) <= 6 * len s.
Proof.
  unfold escape. induction s as [|c s IH]; [cbn; slia|]. cbn [flat_map]. rewrite app_length. cbn [List.length].
  assert (len (escape_char c) <= 6); [|slia]. unfold escape_char. repeat (destruct (N.eqb _ _); [cbn; slia|]). cbn. slia.
Qed.
Lemma esc2 s : len (escape (escape s)) <= 10 * len s.
Proof.
  unfold escape at 2. induction s as [|c s IH]; [cbn; slia|]. cbn [flat_map]. unfold escape at 1. rewrite flat_map_app, app_length. cbn [List.length].
  fold (escape (escape_char c)). fold (escape (flat_map escape_char s)).
  assert (len (escape (escape_char c)) <= 10); [|slia]. unfold escape_char.
  destruct (N.eqb_spec c 38) as [->|]; [cbn; slia|]. destruct (N.eqb_spec c 60) as [->|]; [cbn; slia|]. destruct (N.eqb_spec c 62) as [->|]; [cbn; slia|].
  destruct (N.eqb_spec c 34) as [->|]; [cbn; slia|]. destruct (N.eqb_spec c 39) as [->|]; [cbn; slia|].
  pose proof (esc1 [c]) as H. cbn [List.length] in H. slia.
Qed.
Lemma dec_go f : forall k n acc, (n < 10 ^ N.of_nat k)%N -> len (dec_digits f n acc) <= max 1 k + len acc.
Proof.
  induction f as [|f IH]; intros k n acc H; cbn [dec_digits]; [slia|]. destruct (N.ltb_spec n 10) as [L|L]; [cbn [List.length]; slia|].
  destruct k as [|k]; [cbn in H; slia|]. destruct k as [|k]; [change (10 ^ N.of_nat 1)%N with 10%N in H; slia|].
  specialize (IH (S k) (N.div n 10) ((48 + n mod 10)%N :: acc)). cbn [List.length] in IH.
  assert (H' : (n / 10 < 10 ^ N.of_nat (S k))%N).
  { apply N.div_lt_upper_bound; [discriminate|]. rewrite <- N.pow_succ_r'. replace (N.succ (N.of_nat (S k))) with (N.of_nat (S (S k))) by slia. exact H. }
  specialize (IH H'). slia.
Qed.
Lemma dec_len n : (n < 2 ^ 64)%N -> len (dec n) <= 20.
Proof. intro H. pose proof (dec_go (S (N.size_nat n)) 20 n []) as X. cbn [List.length] in X. unfold dec. assert (n < 10 ^ N.of_nat 20)%N; [|specialize (X H0); cbn [Nat.max] in X; slia]. eapply N.lt_trans; [exact H|]. reflexivity. Qed.

(** ** Inlines and blocks *)
Definition def_size (x : link_definition) : nat := len (ld_destination x) + text_size (ld_title x).
Definition start_fits (b : block) : Prop := match b with BList (MkList (Ordered n) _) => (n < 2 ^ 64)%N | _ => True end.

Section Size.
  Variable st : html_state.
  Variables B M : nat.
  Hypothesis HB : 2000 + 10 * M + 10 * len (hc_anchor_prefix (hs_config st)) <= B.
  Hypothesis Hd : forall l x, get_link_definition st l = Some x -> def_size x <= M.
  Hypothesis Hf : forall l n, get_footnote_index st l = Some n -> (n < 2 ^ 64)%N.

  Lemma scale k x : k <= B -> k * x <= x * B.
  Proof. intro. rewrite Nat.mul_comm. now apply Nat.mul_le_mono_l. Qed.
  Lemma title_len t : attrs_size (title_attr t) <= 10 + 10 * text_size t.
  Proof. destruct t as [t|]; cbn [title_attr attrs_size map text_size]; unfold attrs_size; cbn [map fst snd total fold_right]; [|slia]. pose proof (esc2 t). cbn [lit list_ascii_of_string map List.length]. slia. Qed.
  Lemma attrs_cons kv l : attrs_size (kv :: l) = 4 + len (fst kv) + len (escape (snd kv)) + attrs_size l.
  Proof. reflexivity. Qed.
  Lemma attrs_nil : attrs_size [] = 0. Proof. reflexivity. Qed.
  Lemma dl_children A (f : A -> doc) g l : Forall (fun x => dl (f x) <= g x * B) l -> dl (concat_docs (map f l)) <= total (map g l) * B.
  Proof. intro H. rewrite dl_concat, map_map. now apply total_le. Qed.
  Ltac lits := cbn [lit list_ascii_of_string map List.length fst snd] in *.
  Ltac start := rewrite ?dl_tag, ?attrs_cons, ?attrs_nil; cbn [dl fst snd]; lits.
  Lemma inline_len i : dl (inline_to_doc st i) <= inline_size i * B.
  Proof.
    induction i as [s| |s|s|d t c Hc|l t Hl Ht|im|c Hc|c Hc|c Hc|s|s|] using inline_ind';
      cbn [inline_to_doc inline_size link_children link_destination link_title lr_text lr_label]; start;
      try (apply (dl_children _ (inline_to_doc st) inline_size) in Hc); rewrite ?Nat.mul_add_distr_r.
    - pose proof (esc1 s). pose proof (scale 6 (len s) ltac:(slia)). slia.
    - slia.
    - pose proof (esc1 s). pose proof (scale 6 (len s) ltac:(slia)). slia.
    - pose proof (scale 1 (len s) ltac:(slia)). slia.
    - pose proof (esc2 d). pose proof (title_len t). pose proof (scale 10 (len d) ltac:(slia)). pose proof (scale 10 (text_size t) ltac:(slia)). slia.
    - apply (dl_children _ (inline_to_doc st) inline_size) in Ht. destruct (get_link_definition st l) as [x|] eqn:E; [|cbn [dl]; slia].
      apply Hd in E. unfold def_size in E. start. pose proof (esc2 (ld_destination x)). pose proof (title_len (ld_title x)). slia.
    - destruct im as [d t a]. cbn [image_destination image_title image_alt]. start. pose proof (esc2 d). pose proof (esc2 a). pose proof (title_len t). rewrite ?Nat.mul_add_distr_r.
      pose proof (scale 10 (len d) ltac:(slia)). pose proof (scale 10 (text_size t) ltac:(slia)). pose proof (scale 10 (len a) ltac:(slia)). slia.
    - slia.
    - slia.
    - slia.
    - pose proof (esc2 s). pose proof (esc1 s). pose proof (scale 16 (len s) ltac:(slia)). slia.
    - destruct (get_footnote_index st s) as [n|] eqn:E; [|cbn [dl]; slia]. apply Hf, dec_len in E. start.
      match goal with |- context [escape (escape ?x)] => pose proof (esc2 x) as X end. rewrite !app_length in *. lits.
      match goal with |- context [len (escape ?x)] => lazymatch x with context [escape] => fail | _ => pose proof (esc1 x) as Y end end. lits. slia.
    - slia.
  Qed.
  Lemma inlines_len l : dl (inlines_to_doc st l) <= inlines_size l * B.
  Proof. apply dl_children, Forall_forall. intros. apply inline_len. Qed.

  Lemma cells_len tagn al row : forall i acc, len tagn <= 2 ->
    dl (cells_to_doc st tagn al i row acc) <= dl acc + total (map (fun c => 1 + inlines_size c) row) * B.
  Proof.
    induction row as [|c row IH]; intros i acc L; cbn [cells_to_doc map]; rewrite ?total_cons; [cbn; slia|].
    etransitivity; [apply IH, L|]. rewrite dl_append, dl_tag, attrs_cons, attrs_nil. cbn [fst snd]. pose proof (inlines_len c).
    assert (len (escape (align_class (nth_error al i))) <= 30) by (unfold align_class; destruct (nth_error al i) as [[]|]; vm_compute; lia).
    lits. rewrite !Nat.mul_add_distr_r. slia.
  Qed.
  Lemma row_len tagn al row : len tagn <= 2 ->
    dl (table_row_to_doc st row tagn al) <= 9 + total (map (fun c => 1 + inlines_size c) row) * B.
  Proof. intro L. unfold table_row_to_doc. start. pose proof (cells_len tagn al row 0 DNil L) as H. cbn [dl] in H. slia. Qed.
  Lemma task_len t : dl (task_to_doc t) <= 100.
  Proof. destruct t as [[]|]; vm_compute; lia. Qed.
  Lemma svg_len t : len (svg_icon t) <= 1300.
  Proof. apply Nat.leb_le. destruct t; vm_compute; reflexivity. Qed.
  Lemma css_len t : len (escape (css_classes t)) <= 100.
  Proof. apply Nat.leb_le. destruct t; vm_compute; reflexivity. Qed.
  Lemma heading_len k : len (heading_tag k) <= 2.
  Proof. destruct k as [n|[]]; cbn [heading_tag]; repeat (destruct (N.eqb _ _); [cbn; lia|]); cbn; lia. Qed.
  Lemma title_text_len t : len (html_title t) <= 10 + match t with Custom n => len n | _ => 0 end.
  Proof. destruct t; cbn [html_title]; vm_compute; lia || idtac. all: cbn; slia. Qed.
  Lemma starts_of l : Forall start_fits (flat_map block_preorder l) -> Forall (fun b => Forall start_fits (block_preorder b)) l.
  Proof. intro H. induction l as [|b l IH]; cbn [flat_map] in H; constructor; apply Forall_app in H; tauto. Qed.
  Lemma block_len b : Forall start_fits (block_preorder b) -> dl (block_to_doc st b) <= block_size b * B.
  Proof.
    assert (CH : forall l, Forall (fun b => Forall start_fits (block_preorder b) -> dl (block_to_doc st b) <= block_size b * B) l -> Forall start_fits (flat_map block_preorder l) ->
       dl (concat_docs (map (block_to_doc st) l)) <= total (map block_size l) * B).
    { intros l H K. apply dl_children. apply starts_of in K. induction H; inversion K; constructor; auto. }
    induction b as [c|h| |bs H|k items H|c|s|d|t|l bs H|t bs H|] using block_ind'; cbn [block_to_doc block_preorder fd_blocks fd_label ga_blocks ga_type l_items l_kind]; intro F;
      inversion F as [|? ? F1 F2]; subst; clear F; cbn [block_size]; rewrite ?Nat.mul_add_distr_r; start.
    - pose proof (inlines_len c). slia.
    - destruct h as [k c]. cbn [h_kind h_content]. pose proof (inlines_len c). pose proof (heading_len k). slia.
    - slia.
    - specialize (CH bs H F2). slia.
    - assert (G : dl (concat_docs (map (fun it : list_item => tag (lit "li") [] (append (task_to_doc (li_task it)) (concat_docs (map (block_to_doc st) (li_blocks it))))) items))
        <= total (map (fun it => 1 + total (map block_size (li_blocks it))) items) * B).
      { apply dl_children. clear F1. induction H as [|it items Hit _ IH]; cbn [flat_map] in F2; constructor; apply Forall_app in F2 as [F2 F3]; [|auto].
        start. rewrite dl_append. pose proof (task_len (li_task it)). specialize (CH _ Hit F2). rewrite ?Nat.mul_add_distr_r. slia. }
      destruct k as [n|[]]; cbn [list_tag]; start.
      + cbn in F1. apply dec_len in F1. pose proof (esc1 (dec n)). slia.
      + match goal with |- context [len (escape ?x)] => pose proof (esc1 x) as Y end. lits. slia.
      + match goal with |- context [len (escape ?x)] => pose proof (esc1 x) as Y end. lits. slia.
      + match goal with |- context [len (escape ?x)] => pose proof (esc1 x) as Y end. lits. slia.
    - destruct c as [k s]. unfold code_block_to_doc. start. cbn [cb_literal]. pose proof (esc1 s). pose proof (scale 6 (len s) ltac:(slia)). destruct k; rewrite ?Nat.mul_add_distr_r; slia.
    - pose proof (scale 1 (len s) ltac:(slia)). slia.
    - slia.
    - destruct t as [rows al]. unfold table_to_doc. cbn [t_rows t_alignments]. destruct rows as [|r rows]; [cbn [dl]; slia|]. start. rewrite !dl_append. start.
      assert (R : forall acc, dl (fold_left (fun acc row => append acc (table_row_to_doc st row (lit "td") al)) rows acc) <= dl acc + total (map (fun row => 1 + total (map (fun c => 1 + inlines_size c) row)) rows) * B).
      { clear F1 F2. induction rows as [|r' rows IH]; intro acc; cbn [fold_left map]; rewrite ?total_cons; [cbn; slia|]. specialize (IH (append acc (table_row_to_doc st r' (lit "td") al))). rewrite dl_append in IH. pose proof (row_len (lit "td") al r' (le_n 2)). rewrite !Nat.mul_add_distr_r. slia. }
      specialize (R DNil). cbn [dl] in R. pose proof (row_len (lit "th") al r (le_n 2)). cbn [map]. rewrite total_cons, !Nat.mul_add_distr_r. lits. slia.
    - specialize (CH bs H F2). destruct (get_footnote_index st l) as [n|] eqn:E; [|cbn [dl]; slia]. apply Hf, dec_len in E. start. rewrite dl_append. start.
      repeat match goal with |- context [len (escape ?x)] => generalize (esc1 x); generalize (len (escape x)) end. rewrite app_length. lits. intros. slia.
    - specialize (CH bs H F2). pose proof (svg_len t). pose proof (css_len t). pose proof (title_text_len t). rewrite dl_append. start. rewrite dl_append. cbn [dl].
      repeat match goal with |- context [len (escape (?c :: ?x))] => generalize (esc1 (c :: x)); generalize (len (escape (c :: x))) end. lits. intros.
      assert (match t with Custom n => len n | _ => 0 end <= match t with Custom n => len n | _ => 0 end * B) by (destruct t as [| | | | |name]; try slia; pose proof (scale 1 (len name) ltac:(slia)); slia).
      destruct t; slia.
    - slia.
  Qed.
End Size.
