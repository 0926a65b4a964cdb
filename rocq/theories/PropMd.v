(** Properties C36-C40, C66: the Markdown printer.  Specification: SpecMd.v.
    [render_markdown … = Some o]: the printer returned [o]; [None]: it
    panicked.  All theorems hold for every display width function [uwidth],
    upper-case table [upper], non-ASCII digit table [udigit] and every value
    [big] of [usize::MAX]. *)
From Coq Require Import String Lia.
From Verif Require NumFacts.
From Verif Require Import SpecNum.
From Verif Require Import MdProps DecFacts Sample ConformanceMd ConformanceParser ParserBlock.
Import ListNotations.
Open Scope list_scope.

(** ** C66: the output is a layout of the document's Markdown view.  The view
    ([SpecMd.document_view]) determines every character of the output except
    that a blank of a paragraph text may be printed as a line break. *)
Theorem C66_output_is_view : forall uwidth upper udigit big config d o,
  render_markdown uwidth upper udigit big d config = Some o ->
  laid None (document_view upper udigit config d) o.
Proof. exact view_laid. Qed.
Print Assumptions C66_output_is_view.
Example C66_nonvacuous : exists o, md_render md_default sample = Some o /\
  laid None (document_view (fun c => [c]) (fun _ => false) md_default sample) o.
Proof. eexists. split; [vm_compute; reflexivity|]. apply (view_laid (@List.length char) _ _ 1000). vm_compute. reflexivity. Qed.

Lemma lines_go_cut : forall s cur, ~ In 10%N cur -> cut_lines (rev cur ++ s) (lines_go cur s).
Proof.
  induction s as [|c s IH]; intros cur N; cbn [lines_go].
  - rewrite app_nil_r. destruct cur as [|d t]; [constructor|]. apply cut_last.
    + cbn. intro E. now apply app_eq_nil in E as [_ E].
    + intro I. now apply in_rev in I.
  - destruct (N.eqb c c_nl) eqn:E.
    + apply N.eqb_eq in E as ->. pose proof (IH [] (fun x => x)) as IH0. cbn [rev app] in IH0. destruct cur as [|d t].
      * cbn. apply (cut_lf [] s); [auto|intros [|? ?] ?; discriminate|exact IH0].
      * destruct (N.eqb d c_cr) eqn:D.
        -- apply N.eqb_eq in D as ->. cbn [rev]. rewrite <- app_assoc. apply cut_crlf; [|exact IH0].
           intro I. apply in_rev in I. apply N. now right.
        -- apply cut_lf; [intro I; apply in_rev in I; now apply N| |exact IH0].
           intros u X. cbn [rev] in X. apply app_inj_tail in X as [_ X]. subst d. discriminate.
    + change (rev cur ++ c :: s) with (rev cur ++ [c] ++ s). rewrite app_assoc. apply (IH (c :: cur)).
      intros [X|X]; [|now apply N]. subst c. discriminate.
Qed.
Lemma cut_unique : forall s a, cut_lines s a -> forall b, cut_lines s b -> a = b.
Proof.
  assert (G : forall l l' s s', ~ In 10%N l -> ~ In 10%N l' -> l ++ 10%N :: s = l' ++ 10%N :: s' -> l = l' /\ s = s').
  { induction l as [|x l IH]; intros [|y l'] s s' H H' E; cbn in E.
    - injection E as <-. auto.
    - injection E as <- _. elim H'. now left.
    - injection E as -> _. elim H. now left.
    - injection E as -> E. apply IH in E as [-> ->]; [auto| |]; intro I; [apply H|apply H']; now right. }
  assert (X : forall l s l', ~ In 10%N l' -> l' <> l ++ 10%N :: s).
  { intros l s l' H ->. apply H. apply in_or_app. right. now left. }
  assert (C : forall l, ~ In 10%N l -> ~ In 10%N (l ++ [13%N])).
  { intros l H I. apply in_app_or in I as [I|[I|[]]]; [now apply H|discriminate]. }
  assert (Q : forall l s, l ++ 13%N :: 10%N :: s = (l ++ [13%N]) ++ 10%N :: s) by (intros; now rewrite <- app_assoc).
  induction 1 as [|l N1 N2|l s ls N1 N2 H IH|l s ls N1 H IH]; intros b Hb; inversion Hb as [E|l' M1 M2 E|l' s' ls' M1 M2 H' E|l' s' ls' M1 H' E]; subst.
  all: try reflexivity; try now elim N1.
  all: rewrite ?Q in *.
  all: try (match goal with E : _ = [] |- _ => apply app_eq_nil in E as [_ E]; discriminate | E : [] = _ |- _ => symmetry in E; apply app_eq_nil in E as [_ E]; discriminate end).
  all: try (match goal with H : ~ In _ (_ ++ _ :: _) |- _ => elim H; rewrite <- ?app_assoc; apply in_or_app; right; cbn; auto; fail end).
  - now elim M1.
  - apply G in E as [-> ->]; auto. f_equal. now apply IH.
  - apply G in E as [E ->]; auto. now elim (N2 l').
  - apply G in E as [E ->]; auto. symmetry in E. now elim (M2 l).
  - apply G in E as [E ->]; auto. apply app_inj_tail in E as [-> _]. f_equal. now apply IH.
Qed.
(** the lines of quoted, indented and table texts *)
Theorem C66_lines : forall s ls, lines s = ls <-> cut_lines s ls.
Proof.
  intros s ls. pose proof (lines_go_cut s [] (fun x => x)) as X. cbn [rev app] in X. split; [intros <-; exact X|].
  intro H. exact (cut_unique _ _ X _ H).
Qed.
Print Assumptions C66_lines.
Example C66_lines_example : cut_lines [97%N; 13%N; 10%N; 10%N; 98%N] [[97%N]; []; [98%N]].
Proof. now apply C66_lines. Qed.

(** ** C36: tables *)
Theorem C36_table_aligned : forall uwidth upper udigit big config t, t_rows t <> [] -> md_rectangular t ->
  exists widths header delimiters body,
    render_markdown uwidth upper udigit big (Document [BTable t]) config
      = Some (join [c_nl] (map table_line (header :: delimiters :: body))) /\
    (* cell k is equally wide in every line *)
    Forall (fun cells => map (@List.length char) cells = widths) (header :: delimiters :: body) /\
    (* the cells hold the content of the table *)
    List.length (header :: body) = List.length (t_rows t) /\
    (forall r k cells row cell content al,
       nth_error (header :: body) r = Some cells -> nth_error (t_rows t) r = Some row ->
       nth_error cells k = Some cell -> nth_error row k = Some content -> nth_error (t_alignments t) k = Some al ->
       placed al (one_line udigit content) cell) /\
    (forall k cell al, nth_error delimiters k = Some cell -> nth_error (t_alignments t) k = Some al -> delimits al cell).
Proof.
  intros uwidth upper udigit big config t NE R.
  exists (map (widest udigit t) (seq 0 (List.length (t_alignments t)))).
  exists (table_row_cells udigit t (hd [] (t_rows t))), (delimiter_cells udigit t), (map (table_row_cells udigit t) (tl (t_rows t))).
  assert (RW : table_row_cells udigit t (hd [] (t_rows t)) :: map (table_row_cells udigit t) (tl (t_rows t)) = map (table_row_cells udigit t) (t_rows t)).
  { destruct (t_rows t); [congruence|reflexivity]. }
  rewrite RW. repeat apply conj.
  - rewrite table_document by assumption. f_equal. f_equal. unfold table_lines. cbn [map]. rewrite map_map.
    destruct (t_rows t); [congruence|reflexivity].
  - assert (A : Forall (fun cells => map (@List.length char) cells = map (widest udigit t) (seq 0 (List.length (t_alignments t))))
        (map (table_row_cells udigit t) (t_rows t))).
    { apply Forall_map, Forall_forall. intros row I. now apply row_widths. }
    rewrite <- RW in A. inversion_clear A. constructor; [assumption|]. constructor; [now apply delimiter_widths|assumption].
  - now rewrite map_length.
  - intros r k cells row cell content al E1 E2 E3 E4 E5. rewrite nth_error_map, E2 in E1. injection E1 as <-.
    apply nth_error_map_seq in E3. subst cell. rewrite (nth_error_nth _ _ _ E5).
    match goal with |- context [nth k row ?d] => replace (nth k row d) with content by (symmetry; exact (nth_error_nth _ _ _ E4)) end.
    apply cell_pad_placed.
  - intros k cell al E1 E2. apply nth_error_map_seq in E1. subst. rewrite <- (nth_error_nth _ _ ANone E2).
    apply delimiter_delimits, column_chars_least.
Qed.
Print Assumptions C36_table_aligned.
(** hence all lines of the output have the same number of characters, if no
    cell contains a line break *)
Theorem C36_lines_equally_long : forall uwidth upper udigit big config t o, t_rows t <> [] -> md_rectangular t ->
  (forall row content, In row (t_rows t) -> In content row -> ~ In c_nl (one_line udigit content)) ->
  render_markdown uwidth upper udigit big (Document [BTable t]) config = Some o ->
  List.length (lines o) = S (List.length (t_rows t)) /\
  forall a b, In a (lines o) -> In b (lines o) -> List.length a = List.length b.
Proof.
  intros uwidth upper udigit big config t o NE R NL E.
  rewrite table_document in E by assumption. injection E as <-.
  assert (N : forall row, In row (t_rows t) -> ~ In c_nl (table_line (table_row_cells udigit t row))).
  { intros row I J. unfold table_line in J. apply in_app_or in J as [J|J]; [cbn in J; intuition discriminate|].
    apply in_app_or in J as [J|J]; [|cbn in J; intuition discriminate].
    assert (Q : exists cell, In cell (table_row_cells udigit t row) /\ In c_nl cell).
    { revert J. generalize (table_row_cells udigit t row). induction l as [|x l IH]; [contradiction|].
      intro J. destruct l as [|y l]; [exists x; split; [now left|exact J]|].
      change (join (lit " | ") (x :: y :: l)) with (x ++ lit " | " ++ join (lit " | ") (y :: l)) in J.
      apply in_app_or in J as [J|J]; [exists x; split; [now left|exact J]|].
      apply in_app_or in J as [J|J]; [cbn in J; intuition discriminate|].
      apply IH in J as (cell & A & B). exists cell. split; [now right|exact B]. }
    destruct Q as (cell & A & B). apply in_map_iff in A as (k & <- & K). apply in_seq in K.
    destruct (cell_pad_placed (nth k (t_alignments t) ANone) (column_chars udigit t k) (one_line udigit (nth k row []))) as (a & b & P & _).
    rewrite P in B. apply in_app_or in B as [B|B]; [apply repeat_spec in B; discriminate|].
    apply in_app_or in B as [B|B]; [|apply repeat_spec in B; discriminate].
    apply (NL row (nth k row [])); auto. apply nth_In. lia. }
  assert (D : ~ In c_nl (table_line (delimiter_cells udigit t))).
  { intro J. unfold table_line in J. apply in_app_or in J as [J|J]; [cbn in J; intuition discriminate|].
    apply in_app_or in J as [J|J]; [|cbn in J; intuition discriminate].
    assert (Q : exists cell, In cell (delimiter_cells udigit t) /\ In c_nl cell).
    { revert J. generalize (delimiter_cells udigit t). induction l as [|x l IH]; [contradiction|].
      intro J. destruct l as [|y l]; [exists x; split; [now left|exact J]|].
      change (join (lit " | ") (x :: y :: l)) with (x ++ lit " | " ++ join (lit " | ") (y :: l)) in J.
      apply in_app_or in J as [J|J]; [exists x; split; [now left|exact J]|].
      apply in_app_or in J as [J|J]; [cbn in J; intuition discriminate|].
      apply IH in J as (cell & A & B). exists cell. split; [now right|exact B]. }
    destruct Q as (cell & A & B). apply in_map_iff in A as (k & <- & K). 
    destruct (delimiter_delimits _ _ (column_chars_least udigit t k)) as (n & _ & P). rewrite P in B.
    destruct (nth k (t_alignments t) ANone); repeat (apply in_app_or in B as [B|B]);
      try (apply repeat_spec in B; discriminate); cbn in B; intuition discriminate. }
  assert (Z : forall l, ~ In c_nl (table_line l) -> ~ In c_nl (table_line l) /\ exists y c, table_line l = y ++ [c] /\ c <> c_cr).
  { intros l A. split; [exact A|]. exists (lit "| " ++ join (lit " | ") l ++ lit " "), (ch "|"). split; [|discriminate].
    unfold table_line. rewrite <- !app_assoc. reflexivity. }
  assert (F : lines (join [c_nl] (table_lines udigit t)) = table_lines udigit t).
  { apply lines_join. unfold table_lines. destruct (t_rows t) as [|h b] eqn:T; [congruence|].
    constructor; [apply Z, N; now left|]. constructor; [apply Z, D|].
    apply Forall_map, Forall_forall. intros row I. apply Z, N. now right. }
  assert (S : forall a, In a (table_lines udigit t) -> exists cells, a = table_line cells /\
     map (@List.length char) cells = map (widest udigit t) (seq 0 (List.length (t_alignments t)))).
  { intros a I. unfold table_lines in I. destruct (t_rows t) as [|h b] eqn:T; [contradiction|].
    destruct I as [<-|[<-|I]].
    - eexists. split; [reflexivity|]. apply row_widths; auto. rewrite T. now left.
    - eexists. split; [reflexivity|]. apply delimiter_widths; auto. now rewrite T.
    - apply in_map_iff in I as (row & <- & I). eexists. split; [reflexivity|]. apply row_widths; auto. rewrite T. now right. }
  rewrite F. split.
  - unfold table_lines. destruct (t_rows t); [congruence|]. cbn. now rewrite map_length.
  - intros a b A B. apply S in A as (ca & -> & A). apply S in B as (cb & -> & B). apply table_line_same. congruence.
Qed.
Print Assumptions C36_lines_equally_long.
Definition C36_table : table :=
  Table [[[IText (lit "a")]; [IText (lit "long header")]; [IText (lit "x")]];
         [[IStrong [IText (lit "bold")]]; []; [IText (lit "yy"); ICode (lit "z")]]] [ALeft; ACenter; ARight].
Example C36_nonvacuous : md_rectangular C36_table /\
  md_render md_default (Document [BTable C36_table]) = Some
(lit "| a        | long header |     x |
| -------- | :---------: | ----: |
| **bold** |             | yy`z` |").
Proof. split; [repeat constructor|]. vm_compute. reflexivity. Qed.

(** ** C37: panics *)
(** exactly when rendering panics *)
Theorem C37_panics_exactly : forall uwidth upper udigit big config d,
  render_markdown uwidth upper udigit big d config = None <-> document_panics uwidth udigit config d.
Proof. exact panics_exactly. Qed.
Print Assumptions C37_panics_exactly.
(** in particular not for documents without quotes whose tables are
    rectangular and whose lists are numbered within 64 bits *)
Theorem C37_no_panic : forall uwidth upper udigit big config d,
  (forall b, In b (doc_blocks d) ->
     match b with
     | BBlockQuote _ => False
     | BTable t => md_rectangular t
     | BList (MkList (Ordered start) items) =>
         (0 < start + N.of_nat (List.length items) <= u64_max)%N
     | _ => True
     end) ->
  exists o, render_markdown uwidth upper udigit big d config = Some o.
Proof.
  intros uwidth upper udigit big config d H. destruct render_markdown eqn:E; [eauto|]. exfalso. apply panics_exactly in E.
  revert E H. unfold document_panics, doc_blocks.
  set (good := fun b => match b with
     | BBlockQuote _ => False
     | BTable t => md_rectangular t
     | BList (MkList (Ordered start) items) => (0 < start + N.of_nat (List.length items) <= u64_max)%N
     | _ => True
     end).
  change (panics_blocks uwidth udigit config 0 0 (d_blocks d) -> (forall b, In b (flat_map block_preorder (d_blocks d)) -> good b) -> False).
  generalize (d_blocks d). cut (forall c i l, panics_blocks uwidth udigit config c i l -> (forall b, In b (flat_map block_preorder l) -> good b) -> False); [intros Q l; apply Q|].
  apply (panics_blocks_mind uwidth udigit config
      (fun c i b => (forall x, In x (block_preorder b) -> good x) -> False)
      (fun c i l => (forall x, In x (flat_map block_preorder l) -> good x) -> False)).
  - intros c i bs _ N. apply (N (BBlockQuote bs)). now left.
  - intros c i bs _ _ N. apply (N (BBlockQuote bs)). now left.
  - intros c i t bs _ IH N. apply IH. intros x I. apply N. right. exact I.
  - intros c i t O N. apply (rect_overflow udigit t); auto. apply (N (BTable t)). now left.
  - intros c i k items O N. specialize (N (BList (MkList k items)) (or_introl eq_refl)). destruct k as [s|]; cbn in O, N; [lia|contradiction].
  - intros c i k items j task bs E _ IH N. apply IH. intros x I. apply N. right. apply in_flat_map.
    exists (ListItem task bs). split; [eapply nth_error_In; eassumption|exact I].
  - intros c i l bs _ IH N. apply IH. intros x I. apply N. right. exact I.
  - intros c i b l _ IH N. apply IH. intros x I. apply N. cbn [flat_map]. apply in_or_app. now left.
  - intros c i b l x I _ IH N. apply IH. intros y J. apply N. cbn [flat_map]. apply in_or_app. right.
    apply in_flat_map. eauto.
Qed.
Print Assumptions C37_no_panic.
Example C37_nonvacuous : forall b, In b (doc_blocks (Document [BTable C36_table; BList (MkList (Ordered 7) [ListItem None [BParagraph [IText (lit "x")]]])])) ->
     match b with
     | BBlockQuote _ => False
     | BTable t => md_rectangular t
     | BList (MkList (Ordered start) items) => (0 < start + N.of_nat (List.length items) <= u64_max)%N
     | _ => True
     end.
Proof. intros b [<-|[<-|[<-|[]]]]; cbn; repeat constructor. discriminate. Qed.
(** "never panics" is false: a quote in a narrow page or deep in lists, a ragged
    table, an ordered list that reaches the end of u64 *)
Theorem C37_never_panics_refuted : forall uwidth upper udigit big,
  render_markdown uwidth upper udigit big (Document [BBlockQuote []]) (with_width md_default 1) = None /\
  render_markdown uwidth upper udigit big (Document [BTable (Table [[[IText (lit "a")]]; [[]; [IText (lit "four")]]] [ANone])]) md_default = None /\
  render_markdown uwidth upper udigit big (Document [BList (MkList (Ordered u64_max) [ListItem None []])]) md_default = None /\
  render_markdown uwidth upper udigit big (Document [BList (MkList (Ordered 0) [])]) md_default = None.
Proof.
  intros. rewrite !panics_exactly. repeat split; apply panics_first.
  - apply panics_quote. cbn. lia.
  - apply panics_table. eexists _, _, 1, _. repeat split; cbn; auto.
  - apply panics_numbers. left. vm_compute. reflexivity.
  - apply panics_numbers. right. reflexivity.
Qed.
Print Assumptions C37_never_panics_refuted.

(** ** C38: wrapping *)
(** A line of a text paragraph begun by wrapping is empty (end of output) or
    begins, without blanks, with a word outside the documented list of unsafe
    words. *)
Theorem C38_wrap : forall uwidth upper udigit big config t before line,
  render_markdown uwidth upper udigit big (Document [BParagraph [IText t]]) config = Some (before ++ c_nl :: line) ->
  line = [] \/ exists w rest, tokens line = Some w :: rest /\ ~ unsafe_word udigit w.
Proof.
  intros uwidth upper udigit big config t before line E. apply view_laid in E.
  unfold document_view in E. cbn [d_blocks map blocks_pieces separated block_view] in E. rewrite app_nil_r in E.
  unfold inlines_view in E. cbn [flat_map inline_view] in E. rewrite app_nil_r in E. eapply wrapped_line; eassumption.
Qed.
Print Assumptions C38_wrap.
(** the detector of unsafe words is exactly the list *)
Theorem C38_detector : forall udigit w, w <> [] -> Forall (fun c => is_whitespace c = false) w ->
  (is_markdown_syntax_at_line_start udigit w = true <-> unsafe_word udigit w).
Proof. exact unsafe_iff. Qed.
Print Assumptions C38_detector.
Example C38_nonvacuous :
  md_render (with_width md_default 12) (Document [BParagraph [IText (lit "aaaaaaaaa - bbbbbb 1. cc")]])
  = Some (lit "aaaaaaaaa -
bbbbbb 1. cc").
Proof. vm_compute. reflexivity. Qed.
(** The list misses words: all of these texts are one paragraph on a wide
    page, but at width 12 the output parses to something else (a quote, a
    list, HTML, a definition, a footnote, a setext heading). *)
Definition parsed (o : option str) : option (list block) :=
  match o with
  | Some s => match parse_markdown test_config s with Ok _ d => Some (d_blocks d) | _ => None end
  | None => None
  end.
Theorem C38_wrap_refuted : forall t, In t
   [lit "aaaaaaaaaa >a bb"; lit "aaaaaaaaaa 1) y"; lit "aaaaaaaaaa <div> y"; lit "aaaaaaaaaa [x]: y";
    lit "aaaaaaaaaa [^x]: y"; lit "aaaaaaaaaa ==="; lit "aaaaaaaaaa --"] ->
  let d := Document [BParagraph [IText t]] in
  (exists l, parsed (md_render md_default d) = Some [BParagraph l]) /\
  forall l, parsed (md_render (with_width md_default 12) d) <> Some [BParagraph l].
Proof.
  intros t I. repeat (destruct I as [<-|I]; [split; [eexists; vm_compute; reflexivity|intro l; vm_compute; discriminate]|]). contradiction.
Qed.
Print Assumptions C38_wrap_refuted.

(** ** C39: the width changes only blanks *)
Theorem C39_width_only_blanks : forall uwidth upper udigit big config d w w' o o',
  (forall q, ~ In (BBlockQuote q) (doc_blocks d)) ->
  render_markdown uwidth upper udigit big d (with_width config w) = Some o ->
  render_markdown uwidth upper udigit big d (with_width config w') = Some o' -> tokens o = tokens o'.
Proof. exact width_words. Qed.
Print Assumptions C39_width_only_blanks.
(** ... and not whether rendering succeeds *)
Theorem C39_width_no_panic : forall uwidth upper udigit big config d w w' o,
  (forall q, ~ In (BBlockQuote q) (doc_blocks d)) ->
  render_markdown uwidth upper udigit big d (with_width config w) = Some o ->
  exists o', render_markdown uwidth upper udigit big d (with_width config w') = Some o'.
Proof.
  intros uwidth upper udigit big config d w w' o N E.
  destruct (render_markdown uwidth upper udigit big d (with_width config w')) eqn:E'; [eauto|].
  apply width_panics with (w' := w) in E'; [congruence|exact N].
Qed.
Print Assumptions C39_width_no_panic.
(** [tokens] forgets only blanks: texts with the same tokens have the same
    characters apart from whitespace *)
Theorem C39_tokens_faithful : forall a b, tokens a = tokens b ->
  filter (fun c => negb (is_whitespace c)) a = filter (fun c => negb (is_whitespace c)) b.
Proof.
  assert (G : forall a, filter (fun c => negb (is_whitespace c)) a = flat_map (fun x => match x with Some w => w | None => [] end) (tokens a)).
  { induction a as [|c a IH]; [reflexivity|]. change (tokens (c :: a)) with (token_char c (tokens a)). cbn [filter]. rewrite IH.
    unfold token_char. destruct (is_whitespace c); cbn [negb]; destruct (tokens a) as [|[?|] ?]; reflexivity. }
  intros a b E. now rewrite !G, E.
Qed.
Print Assumptions C39_tokens_faithful.
Example C39_nonvacuous : exists d o o', (forall q, ~ In (BBlockQuote q) (doc_blocks d)) /\
  md_render (with_width md_default 10) d = Some o /\ md_render (with_width md_default 80) d = Some o' /\ o <> o'.
Proof.
  exists (Document [BParagraph [IText (lit "one two three four")]]). eexists _, _. split; [|split; [vm_compute; reflexivity|split; [vm_compute; reflexivity|discriminate]]].
  intros q [E|[]]. discriminate.
Qed.

(** ** C40: list items *)
(** Item [j] is printed as its spaces, marker, blank, task box and content. *)
Theorem C40_items : forall uwidth upper udigit big config kind items o,
  render_markdown uwidth upper udigit big (Document [BList (MkList kind items)]) config = Some o ->
  exists ls, o = join [c_nl] ls /\ List.length ls = List.length items /\
    forall j task bs, nth_error items j = Some (ListItem task bs) ->
      exists body, nth_error ls j = Some
        (rep (md_spaces_before_list_item config) c_sp
         ++ match kind with
            | Ordered start => dec (start + N.of_nat j) ++ lit "."
            | Bullet Dash => lit "-"
            | Bullet Star => lit "*"
            | Bullet Plus => lit "+"
            end
         ++ lit " "
         ++ match task with Some Complete => lit "[X] " | Some Incomplete => lit "[ ] " | None => [] end
         ++ body) /\
        exists aft, let ind := content_indent config kind (List.length items) in
        laid aft (blocks_pieces config ind (map (fun b => (b, block_view upper udigit config ind b)) bs)) body.
Proof.
  intros uwidth upper udigit big config kind items o E. apply view_laid in E.
  unfold document_view in E. cbn [d_blocks map blocks_pieces separated block_view] in E. rewrite app_nil_r in E.
  apply items_split0 in E as (ls & -> & L & N). exists ls. rewrite map_length in L. split; [reflexivity|split; [exact L|]].
  intros j task bs I.
  edestruct N as (body & E1 & E2); [rewrite nth_error_map, I; reflexivity|].
  exists body. split; [|eexists; exact E2]. rewrite E1. unfold item_text. cbn [li_task].
  destruct kind as [|[]], task as [[]|]; reflexivity.
Qed.
Print Assumptions C40_items.
(** the number is printed in decimal, without leading zeros *)
Theorem C40_numeral : forall n, numeral 10 (dec n) n /\
  exists d l, dec n = d :: l /\ (d = ch "0" -> l = [] /\ n = 0%N).
Proof.
  intro n. destruct (dec_numeral n) as (V & D & Z). split; [|exact Z]. apply NumFacts.numeral_dec. split; [|split; [|now symmetry]].
  - destruct Z as (d & l & -> & _). discriminate.
  - apply Forall_forall. intros c I. now apply (proj1 (forallb_forall _ _) D).
Qed.
Print Assumptions C40_numeral.
Example C40_nonvacuous :
  md_render md_default (Document [BList (MkList (Ordered 9) [ListItem None [BParagraph [IText (lit "a")]]; ListItem (Some Complete) [BParagraph [IText (lit "b")]]])])
  = Some (lit " 9. a
 10. [X] b").
Proof. vm_compute. reflexivity. Qed.
