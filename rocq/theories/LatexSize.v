(** Proof of C107: the size of the LaTeX against the size of the document. *)
From Coq Require Import String Lia.
From Verif Require Import SpecSize HtmlSize SpecLatex LatexFacts.
Import ListNotations.
Open Scope list_scope.
Local Notation len := (@List.length char).
Local Notation tl := (@List.length sch).

Lemma chs_len s : tl (chs s) = len s. Proof. apply map_length. Qed.
Lemma tesc_char c : len (escape_latex_char c) <= 18.
Proof. unfold escape_latex_char. repeat (destruct (N.eqb _ _); [vm_compute; lia|]). cbn. lia. Qed.
Lemma tesc_len s : tl (esc s) <= 18 * len s.
Proof.
  unfold esc. rewrite chs_len. unfold escape_latex. induction s as [|c s IH]; [cbn; slia|]. cbn [flat_map]. rewrite app_length. cbn [List.length].
  pose proof (tesc_char c). slia.
Qed.
Lemma flow_len s : tl (flow s) <= 18 * len s.
Proof.
  induction s as [|c s IH]; [cbn; slia|]. cbn [flow List.length]. destruct (is_whitespace c).
  - destruct s as [|e s]; [cbn; slia|]. destruct (is_whitespace e); cbn [List.length] in *; slia.
  - rewrite app_length, chs_len. pose proof (tesc_char c). slia.
Qed.
Lemma sep_len sep l : tl (sep_by sep l) <= total (map (fun x => tl sep + tl x) l).
Proof.
  induction l as [|x l IH]; [cbn; slia|]. cbn [map]. rewrite total_cons. destruct l as [|y l]; [cbn [sep_by map total fold_right]; slia|].
  change (sep_by sep (x :: y :: l)) with (x ++ sep ++ sep_by sep (y :: l)). rewrite !app_length. slia.
Qed.
Lemma flat_len A (f : A -> list sch) g B l : Forall (fun x => tl (f x) <= g x * B) l -> tl (flat_map f l) <= total (map g l) * B.
Proof. intro H. induction H; [cbn; slia|]. cbn [flat_map map]. rewrite app_length, total_cons. slia. Qed.

Section Size.
  Variable cfg : latex_config.
  Variable num : str -> option N.
  Variable def : list inline -> option link_definition.
  Variables B M : nat.
  Hypothesis HB : 200 + 18 * M <= B.
  Hypothesis Hd : forall l x, def l = Some x -> len (ld_destination x) <= M.
  Hypothesis Hn : forall l n, num l = Some n -> (n < 2 ^ 64)%N.
  Lemma tscale k x : k <= B -> k * x <= x * B.
  Proof. intro. rewrite Nat.mul_comm. now apply Nat.mul_le_mono_l. Qed.
  Ltac lits := cbn [lit list_ascii_of_string map List.length fst snd] in *.
  Ltac start := unfold cmd_, braces, cs, env_, nl, env_begin, env_end; rewrite ?app_length, ?chs_len; lits; rewrite ?app_length, ?chs_len; lits.

  Lemma tinline_len i : tl (tex_inline num def i) <= inline_size i * B.
  Proof.
    induction i as [s| |s|s|d t c Hc|l t Hl Ht|im|c Hc|c Hc|c Hc|s|s|] using inline_ind';
      cbn [tex_inline inline_size link_children link_destination link_title lr_text lr_label]; 
      try (apply flat_len in Hc); rewrite ?Nat.mul_add_distr_r.
    - pose proof (flow_len s). pose proof (tscale 18 (len s) ltac:(slia)). destruct (forallb is_whitespace s); [rewrite chs_len, map_length|]; slia.
    - vm_compute tl. slia.
    - start. pose proof (tesc_len s). pose proof (tscale 18 (len s) ltac:(slia)). slia.
    - pose proof (tesc_len s). pose proof (tscale 18 (len s) ltac:(slia)). slia.
    - pose proof (tesc_len d). pose proof (tscale 18 (len d) ltac:(slia)). start. destruct t as [t|]; cbn [text_size]; start; [|cbn [List.length]; slia].
      pose proof (tesc_len t). pose proof (tscale 18 (len t) ltac:(slia)). slia.
    - apply flat_len in Ht, Hl. destruct (def l) as [x|] eqn:E; start; [|slia]. apply Hd in E. pose proof (tesc_len (ld_destination x)). slia.
    - destruct im as [d t a]. cbn [image_destination image_title image_alt]. rewrite ?Nat.mul_add_distr_r. pose proof (tesc_len d). pose proof (tscale 18 (len d) ltac:(slia)). 
      pose proof (tesc_len a). pose proof (tscale 18 (len a) ltac:(slia)). destruct a; start; slia.
    - start. slia.
    - start. slia.
    - start. slia.
    - start. pose proof (tesc_len s). pose proof (tscale 18 (len s) ltac:(slia)). slia.
    - destruct (num s) as [n|] eqn:E; start; [apply Hn, dec_len in E; slia|]. pose proof (tesc_len s). pose proof (tscale 18 (len s) ltac:(slia)). slia.
    - cbn [List.length]. slia.
  Qed.
  Lemma tinlines_len l : tl (tex_inlines num def l) <= inlines_size l * B.
  Proof. apply flat_len, Forall_forall. intros. apply tinline_len. Qed.
  Lemma sep_scaled A (f : A -> list sch) g sep l : tl sep <= 3 -> Forall (fun x => 3 + tl (f x) <= g x * B) l -> tl (sep_by sep (map f l)) <= total (map g l) * B.
  Proof.
    intros S H. etransitivity; [apply sep_len|]. rewrite map_map. apply total_le. eapply Forall_impl; [|exact H]. cbv beta. intros. slia.
  Qed.
  Lemma trow_len r : tl (tex_row num def r) <= 3 + total (map (fun c => 1 + inlines_size c) r) * B.
  Proof.
    unfold tex_row. rewrite app_length, chs_len. lits. assert (X : tl (sep_by (cs " & ") (map (tex_inlines num def) r)) <= total (map (fun c => 1 + inlines_size c) r) * B); [|slia].
    apply sep_scaled; [vm_compute; lia|]. apply Forall_forall. intros c _. pose proof (tinlines_len c). cbn [Nat.mul Nat.add]. rewrite ?Nat.mul_add_distr_r. slia.
  Qed.
  Lemma trows_len tail rs : tl tail <= 3 -> tl (flat_map (fun r => tex_row num def r ++ tail ++ [Ch 10%N]) rs) <= total (map (fun row => 1 + total (map (fun c => 1 + inlines_size c) row)) rs) * B.
  Proof.
    intro T. apply flat_len, Forall_forall. intros r _. pose proof (trow_len r). rewrite !app_length. cbn [List.length]. rewrite ?Nat.mul_add_distr_r. slia.
  Qed.
  Lemma section_len k : len (lit (section_ k)) <= 20.
  Proof. destruct k as [n|[]]; cbn [section_]; repeat (destruct (N.eqb _ _); [cbn; lia|]); cbn; lia. Qed.
  (* every block leaves room for a separator *)
  Lemma tblock_len b : 10 + tl (tex_block cfg num def b) <= block_size b * B.
  Proof.
    assert (CH : forall l, Forall (fun b => 10 + tl (tex_block cfg num def b) <= block_size b * B) l ->
       tl (sep_by [Ch 10%N; Ch 10%N] (map (tex_block cfg num def) l)) <= total (map block_size l) * B).
    { intros l H. apply sep_scaled; [cbn; lia|]. eapply Forall_impl; [|exact H]. cbv beta. intros. slia. }
    induction b as [c|h| |bs H|k items H|c|s|d|t|l bs H|t bs H|] using block_ind'; cbn [tex_block fd_blocks fd_label ga_blocks ga_type l_items l_kind block_size];
      rewrite ?Nat.mul_add_distr_r; change (nl ++ nl) with [Ch 10%N; Ch 10%N].
    - pose proof (tinlines_len c). slia.
    - destruct h as [k c]. cbn [h_kind h_content]. pose proof (tinlines_len c). pose proof (section_len k). start. slia.
    - vm_compute tl. slia.
    - start. specialize (CH bs H). slia.
    - match goal with |- context [flat_map ?f items] => assert (G : tl (flat_map f items) <= total (map (fun it => 1 + total (map block_size (li_blocks it))) items) * B) end.
      { apply flat_len. eapply Forall_impl; [|exact H]. cbv beta. intros it Hit. specialize (CH _ Hit). start. rewrite ?Nat.mul_add_distr_r. destruct (li_task it) as [[]|]; start; cbn [List.length]; slia. }
      revert G. match goal with |- context [flat_map ?f items] => generalize (flat_map f items) end. intros x G. destruct k as [n|k]; start; slia.
    - destruct c as [k s]. unfold tex_code. cbn [cb_kind cb_literal]. pose proof (tscale 1 (len s) ltac:(slia)).
      destruct k as [|[lang|]], (lc_code_block_style cfg); cbn [text_size]; start; try pose proof (tscale 1 (len lang) ltac:(slia)); rewrite ?Nat.mul_add_distr_r; slia.
    - pose proof (tesc_len s). pose proof (tscale 18 (len s) ltac:(slia)). slia.
    - cbn [List.length]. destruct d. slia.
    - destruct t as [rows al]. unfold tex_table. cbn [t_rows t_alignments]. rewrite ?Nat.mul_add_distr_r. pose proof (tscale 1 (len (columns al)) ltac:(slia)) as CO. unfold columns in CO. rewrite map_length in CO.
      destruct rows as [|r rows], (lc_table_style cfg); unfold env_, columns; start; rewrite ?map_length; cbn [map List.length]; rewrite ?total_cons; start; rewrite ?map_length, ?Nat.mul_add_distr_r; try slia.
      + pose proof (trow_len r). pose proof (trows_len [] rows ltac:(cbn; lia)). slia.
      + pose proof (trow_len r). pose proof (trows_len (chs (lit " \\")) rows ltac:(cbn; lia)). lits. slia.
      + pose proof (trow_len r). pose proof (trows_len [] rows ltac:(cbn; lia)). slia.
    - specialize (CH bs H). destruct (num l) as [n|] eqn:E; [apply Hn, dec_len in E|]; start; cbn [List.length]; slia.
    - specialize (CH bs H). start.
      assert (len (alert_name t) <= 9 + match t with Custom n => len n | _ => 0 end) by (destruct t; cbn; slia).
      assert (match t with Custom n => len n | _ => 0 end <= match t with Custom n => len n | _ => 0 end * B) by (destruct t as [| | | | |name]; try slia; pose proof (tscale 1 (len name) ltac:(slia)); slia).
      destruct t; slia.
    - cbn [List.length]. slia.
  Qed.
End Size.
