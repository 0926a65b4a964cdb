(** Reading printed tables. *)
From Coq Require Import String Lia.
From Verif Require SyntaxTable SyntaxDoc.
From Verif Require Export RoundAlert.
Import ListNotations.
Open Scope list_scope.
Local Notation len := (@List.length _).

Definition cell_char_ok (c : char) : Prop := line_char c /\ c <> ch "|".
Definition framed (c : str) : str := c_sp :: c ++ [c_sp].
Lemma stops_end : forall r, stops r -> SpecBlock.line_end r (tl r).
Proof. intros [|c r]; cbn; [constructor|intros ->]. apply (SpecBlock.end_eol [c_nl] r). now left. Qed.
Lemma line_not_end : forall c s r, line_char c -> ~ SpecBlock.line_end (c :: s) r.
Proof. intros c s r [H1 H2]. now apply SyntaxTable.line_end_not. Qed.
Lemma cell_text_line : forall c r, Forall cell_char_ok c -> SpecBlock.cell_text ((c ++ [c_sp]) ++ ch "|" :: r) (c ++ [c_sp]) (ch "|" :: r).
Proof.
  intros c r F. induction F as [|x c [L B] F IH].
  - apply SpecBlock.cell_char; [discriminate|intro; apply line_not_end; split; discriminate|intros [E _]; discriminate|]. apply SpecBlock.cell_stop. left. now exists r.
  - cbn [app]. apply SpecBlock.cell_char; [exact B|intro; now apply line_not_end| |exact IH]. intros [-> (t & E)].
    destruct c as [|y c]; [discriminate|]. inversion F as [|? ? [_ N] _]; subst. cbn in E. injection E as E _. contradiction.
Qed.
Lemma cell_line : forall c r, Forall cell_char_ok c -> SpecBlock.cell_at (framed c ++ ch "|" :: r) (framed c) (ch "|" :: r).
Proof.
  intros c r F. split; [discriminate|]. unfold framed. change (c_sp :: c ++ [c_sp]) with ((c_sp :: c) ++ [c_sp]). apply cell_text_line. constructor; [|exact F]. repeat split; discriminate.
Qed.
(** a printed row behind the first bar *)
Fixpoint bars (cs : list str) : str := match cs with [] => [] | c :: cs => framed c ++ ch "|" :: bars cs end.
Lemma table_line_bars : forall cs, cs <> [] -> table_line cs = ch "|" :: bars cs.
Proof.
  intros cs N. unfold table_line. change (lit "| " ++ ?x) with (ch "|" :: c_sp :: x). f_equal.
  induction cs as [|c cs IH]; [congruence|]. destruct cs as [|c2 cs].
  - cbn [join bars]. unfold framed. rewrite <- ?app_assoc. cbn [app lit]. rewrite <- ?app_assoc. reflexivity.
  - rewrite join_cons by discriminate. change (bars (c :: c2 :: cs)) with (framed c ++ ch "|" :: bars (c2 :: cs)). rewrite <- IH by discriminate. unfold framed. cbn [app]. rewrite <- !app_assoc. reflexivity.
Qed.
Lemma bars_cells : forall A (cell : SpecInline.rule A) cs xs r, cs <> [] -> stops r ->
  Forall2 (fun c x => forall u, cell (framed c ++ ch "|" :: u) x (ch "|" :: u)) cs xs -> SpecBlock.cells cell (bars cs ++ r) xs (tl r).
Proof.
  intros A cell cs xs r N Hr F. induction F as [|c x cs xs Hc F IH]; [congruence|]. cbn [bars]. rewrite <- app_assoc. cbn [app]. destruct F as [|c2 x2 cs xs Hc2 F].
  - eapply SpecBlock.cells_last; [apply Hc|right; reflexivity|]. now apply stops_end.
  - eapply SpecBlock.cells_more; [apply Hc|]. apply IH. discriminate.
Qed.
Lemma line_row : forall A (cell : SpecInline.rule A) k cs xs r, k <= 3 -> cs <> [] -> stops r ->
  Forall2 (fun c x => forall u, cell (framed c ++ ch "|" :: u) x (ch "|" :: u)) cs xs -> SpecBlock.row cell (rep k c_sp ++ table_line cs ++ r) xs (tl r).
Proof.
  intros A cell k cs xs r Hk N Hr F. exists k. eexists. split; [rewrite table_line_bars by exact N; reflexivity|]. split; [exact Hk|]. now apply bars_cells.
Qed.
Lemma text_row : forall k cs r, k <= 3 -> cs <> [] -> stops r -> Forall (Forall cell_char_ok) cs -> SpecBlock.row SpecBlock.cell_at (rep k c_sp ++ table_line cs ++ r) (map framed cs) (tl r).
Proof.
  intros k cs r Hk N Hr F. apply line_row; auto. clear N. induction F; cbn [map]; constructor; [|assumption]. intro u. now apply cell_line.
Qed.
(** delimiters *)
Lemma delimiter_line : forall al c r, al <> ALeft -> delimits al c -> SpecBlock.align_at (framed c ++ ch "|" :: r) al (ch "|" :: r).
Proof.
  intros al c r NA (n & Hn & ->). exists [c_sp], n, [c_sp]. split; [exact Hn|]. split; [repeat constructor|]. split; [repeat constructor|]. unfold framed, rep.
  destruct al; [|congruence|..]; cbn [app lit]; rewrite <- ?app_assoc; cbn [app]; rewrite <- ?app_assoc.
  - right. right. right. split; reflexivity.
  - right. right. left. split; reflexivity.
  - right. left. split; reflexivity.
Qed.
Lemma blank_row : forall A (cell : SpecInline.rule A) r, blank_tail r -> ~ SpecInline.applies (SpecBlock.row cell) (tl r).
Proof.
  intros A cell r Hr (x & u & k & m & E & _ & _). destruct Hr as [->|(j & t & ->)]; cbn [tl] in E; [destruct k; discriminate|].
  revert k E. induction j as [|j IH]; intros [|k] E; cbn in E; try discriminate. injection E as E. now apply (IH k).
Qed.
(** the rows behind the delimiters *)
Lemma body_rows : forall k rows r, k <= 3 -> Forall (fun cs => cs <> [] /\ Forall (Forall cell_char_ok) cs) rows -> blank_tail r ->
  SpecBlock.repeated (SpecBlock.row SpecBlock.cell_at) (tl (flat_map (fun cs => c_nl :: rep k c_sp ++ table_line cs) rows ++ r)) (map (map framed) rows) (tl r).
Proof.
  intros k rows r Hk F Hr. induction F as [|cs rows [N H] F IH].
  - cbn [flat_map map app]. constructor. now apply blank_row.
  - cbn [flat_map map]. rewrite <- app_assoc. cbn [app tl]. rewrite <- app_assoc. eapply SpecBlock.rep_more; [|exact IH]. apply text_row; auto.
    destruct rows; [now apply blank_tail_stops|reflexivity].
Qed.

Section Table.
Variables (entities : str -> option str) (punct : char -> bool) (upper : char -> str).
Let cfg := default_config entities punct upper.
Local Notation rec := (block_ cfg).
Local Notation reads := (reads entities punct upper).
Local Notation alts := (alts entities punct upper).
Local Notation starters := (starters entities punct upper).
Definition cell_read (c : str) (i : list inline) : Prop := Forall cell_char_ok c /\ inline_many0 cfg (trim c) = Ok [] i.
Lemma trim_framed : forall c, trim (framed c) = trim c.
Proof.
  intros c. symmetry. apply SyntaxDef.trimmed_eq. destruct (SyntaxDef.trimmed_trim c) as (a & b & E & A & B & X & Y). exists (c_sp :: a), (b ++ [c_sp]).
  split; [unfold framed; rewrite E at 1; cbn [app]; now rewrite <- !app_assoc|]. split; [now constructor|]. split; [apply Forall_app; split; [exact B|now constructor]|]. now split.
Qed.
(** rows of any width *)
Definition row_read (n : nat) (row : list str) (c : list (list inline)) : Prop :=
  row <> [] /\ Forall (Forall cell_char_ok) row /\ SpecBlock.row_cells cfg n (map framed row) c.
Lemma cells_read : forall ts l, Forall2 cell_read ts l -> Forall (Forall cell_char_ok) ts.
Proof. intros ts l0 F. induction F as [|t i ts l0 [H _] F IH]; constructor; assumption. Qed.
Lemma row_cells_read : forall ts l n, Forall2 cell_read ts l -> len ts = n -> SpecBlock.row_cells cfg n (map framed ts) l.
Proof.
  assert (CR : forall ts l, Forall2 cell_read ts l -> Forall2 (SyntaxTable.cell_reads cfg) (map framed ts) l).
  { intros ts l0 F. induction F as [|t i ts l0 [_ H] F IH]; [constructor|]. cbn [map]. constructor; [|exact IH]. unfold SyntaxTable.cell_reads. rewrite trim_framed.
    apply SyntaxInline2.inline_many0_reads; [apply cfg_ok|discriminate|exact H]. }
  intros ts l0 n F <-. pose proof (CR ts l0 F) as X. apply SyntaxTable.resize_cells; [apply cfg_ok|discriminate|]. exists l0. split; [exact X|]. rewrite (SyntaxTable.F2_length _ _ _ _ _ F). symmetry. eapply SyntaxTable.full_cells, X.
Qed.
Lemma rows_read : forall header rows l, header <> [] -> Forall2 (fun row c => len row = len header /\ Forall2 cell_read row c) rows l -> Forall2 (row_read (@List.length str header)) rows l.
Proof.
  intros header rows l Hh F. induction F as [|row c rows l [H1 H2] F IH]; constructor; [|exact IH]. split; [intros ->; destruct header; [congruence|discriminate]|]. split; [eapply cells_read; exact H2|now apply row_cells_read].
Qed.
Lemma table_reads_wide : forall k header ds rows h als l r, k <= 3 -> blank_tail r -> header <> [] ->
  Forall2 cell_read header h -> Forall2 (fun d al => al <> ALeft /\ delimits al d) ds als -> len als = len header ->
  Forall2 (row_read (@List.length str header)) rows l ->
  p_table cfg (rep k c_sp ++ table_line header ++ flat_map (fun cs => c_nl :: rep k c_sp ++ table_line cs) (ds :: rows) ++ r) = Ok (tl r) (Table (h :: l) als).
Proof.
  intros k header ds rows h als l r Hk Hr Hh Fh Fd Hl Fr.
  eapply SyntaxFacts.exact_ok; [apply SyntaxTable.exact_table; [apply cfg_ok|discriminate]|]. exists (SpecBlock.HTable (map framed header) (map (map framed) rows) als). split.
  - cbn [flat_map]. rewrite <- !app_assoc. cbn [app]. rewrite <- !app_assoc. eapply SpecBlock.R_table.
    + apply text_row; [exact Hk|exact Hh|reflexivity|eapply cells_read; exact Fh].
    + cbn [tl]. rewrite <- ?app_assoc. apply (line_row _ SpecBlock.align_at k ds als); [exact Hk| | |].
      * destruct Fd; [|discriminate]. destruct header; [congruence|discriminate].
      * destruct rows; [now apply blank_tail_stops|reflexivity].
      * clear -Fd. induction Fd as [|d al ds als [H1 H2] F IH]; constructor; [|exact IH]. intro u. now apply delimiter_line.
    + now rewrite map_length.
    + apply body_rows; [exact Hk| |exact Hr]. clear -Fr. induction Fr as [|row c rows l (H1 & H2 & _) F IH]; constructor; [|exact IH]. now split.
  - exists (map framed header), (map (map framed) rows), als, h, l. split; [reflexivity|]. split; [reflexivity|]. rewrite map_length. split; [now apply row_cells_read|].
    clear -Fr. induction Fr as [|row c rows l (_ & _ & H) F IH]; cbn [map]; constructor; [exact H|exact IH].
Qed.
(** ** The block *)
Lemma reads_table_wide : forall k header ds rows h als l, k <= 3 -> header <> [] ->
  Forall2 cell_read header h -> Forall2 (fun d al => al <> ALeft /\ delimits al d) ds als -> len als = len header ->
  Forall2 (row_read (@List.length str header)) rows l ->
  Forall nl_free (map table_line (header :: ds :: rows)) ->
  reads (pre k (join [c_nl] (map table_line (header :: ds :: rows)))) (BTable (Table (h :: l) als)).
Proof.
  intros k header ds rows h als l Hk Hh Fh Fd Hl Fr NF.
  assert (X : forall r, exists t, rep k c_sp ++ table_line header ++ flat_map (fun cs => c_nl :: rep k c_sp ++ table_line cs) (ds :: rows) ++ r = rep k c_sp ++ ch "|" :: t).
  { intros r. rewrite table_line_bars by exact Hh. eexists. reflexivity. }
  assert (E : pre k (join [c_nl] (map table_line (header :: ds :: rows))) = rep k c_sp ++ table_line header ++ flat_map (fun cs => c_nl :: rep k c_sp ++ table_line cs) (ds :: rows)).
  { unfold pre. rewrite join_split by (discriminate || exact NF). rewrite map_map. cbn [map]. rewrite join_flat, <- app_assoc. do 2 f_equal. change (flat_map ?f (?a :: map ?g rows)) with (flat_map f (map g (ds :: rows))).
    rewrite flat_map_map. reflexivity. }
  assert (Hi : inked (ch "|")) by (repeat split; discriminate).
  rewrite E. split. { destruct (X []) as (t & Y). rewrite app_nil_r in Y. exists k, (ch "|"), t. now split. }
  intros r Hr. rewrite <- !app_assoc. pose proof (table_reads_wide k header ds rows h als l r Hk Hr Hh Fh Fd Hl Fr) as T. destruct (X r) as (t & Y). rewrite Y in *.
  rewrite alts_eq.
  rewrite or_e by (apply one_map_e; apply code_block_e; (assumption || discriminate)).
  rewrite or_e by (apply one_map_e; apply heading_e; try assumption; left; discriminate).
  rewrite or_e.
  2:{ apply one_e. apply no_paragraph; [exact Hi|]. do 9 apply Exists_cons_tl. apply Exists_cons_hd. exists (tl r), tt.
      cbn [conditional_unit default_config b_table]. unfold p_unit, value, pmap, bind, ret. fold cfg. now rewrite T. }
  rewrite or_e by (apply one_e; apply pmap_e; apply thematic_e; (assumption || discriminate)).
  unfold tail_alts. fold cfg.
  rewrite or_e by (apply alert_e; (assumption || discriminate)).
  rewrite or_e by (apply one_map_e; apply blockquote_e; (assumption || discriminate)).
  rewrite or_e by (apply one_map_e; apply list_e; apply item_lines_e; try assumption; left; apply marker_e; (reflexivity || discriminate)).
  rewrite or_e by (apply one_map_e; apply html_e; (assumption || discriminate)).
  rewrite or_e by (apply one_map_e; apply footnote_e; (assumption || discriminate)).
  rewrite or_e by (apply one_map_e; apply linkdef_e; (assumption || discriminate)).
  apply or_ok. now apply one_map_ok.
Qed.
Lemma reads_table : forall k header ds rows h als l, k <= 3 -> header <> [] ->
  Forall2 cell_read header h -> Forall2 (fun d al => al <> ALeft /\ delimits al d) ds als -> len als = len header ->
  Forall2 (fun row c => len row = len header /\ Forall2 cell_read row c) rows l ->
  Forall nl_free (map table_line (header :: ds :: rows)) ->
  reads (pre k (join [c_nl] (map table_line (header :: ds :: rows)))) (BTable (Table (h :: l) als)).
Proof. intros k header ds rows h als l Hk Hh Fh Fd Hl Fr NF. apply reads_table_wide; auto. now apply rows_read. Qed.
End Table.
