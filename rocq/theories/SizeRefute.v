(** C99: sources that grow when they are read. *)
From Coq Require Import String Lia.
From Verif Require Import SpecInline SpecSize SyntaxInline2 SizeFacts.
From Verif Require Import RoundRead RoundTable.
Import ListNotations.
Open Scope list_scope.

(** ** Brackets in brackets: "[[[a\\]\]]" *)
Definition esc (s : str) : str := flat_map (fun c => if N.eqb c 93 then [92%N; 93%N] else [c]) s.
Fixpoint brackets (k : nat) : str := match k with 0 => lit "a" | S k => lit "[" ++ esc (brackets k) ++ lit "]" end.
Fixpoint nested (k : nat) : list inline :=
  match k with 0 => [IText (lit "a")] | S k => [ILinkReference (LinkReference (nested k) (nested k))] end.
Lemma esc_label : forall s, (forall t, s <> t ++ [92%N]) -> label_text (esc s) s.
Proof.
  induction s as [|c s IH]; intros H; [constructor|]. assert (L : label_text (esc s) s). { apply IH. intros t ->. now apply (H (c :: t)). }
  unfold esc. cbn [flat_map]. fold (esc s). destruct (N.eqb_spec c 93) as [->|N].
  - now constructor.
  - cbn [app]. apply label_char; [exact N| |exact L]. intros ->. destruct s as [|x s]; [exfalso; now apply (H [])|].
    unfold esc. cbn [flat_map]. destruct (N.eqb_spec x 93) as [->|N2]; cbn [app]; eexists _, _; (split; [reflexivity|]); [discriminate|exact N2].
Qed.
Lemma label_unique : forall raw t, label_text raw t -> forall raw' t' m m', label_text raw' t' -> raw ++ 93%N :: m = raw' ++ 93%N :: m' -> m = m' /\ t = t'.
Proof.
  intros raw t H. induction H as [|s t H IH|c s t N1 N2 H IH]; intros raw' t' m m' H' E; destruct H' as [|s' t' H'|c' s' t' N1' N2' H']; cbn [app] in E.
  - now injection E as ->.
  - discriminate.
  - exfalso. injection E as E _. now apply N1'.
  - discriminate.
  - injection E as E. destruct (IH _ _ _ _ H' E) as [-> ->]. now split.
  - exfalso. injection E as <- E. destruct (N2' eq_refl) as (d & u & -> & D). cbn in E. injection E as E _. now apply D.
  - exfalso. injection E as E _. now apply N1.
  - exfalso. injection E as -> E. destruct (N2 eq_refl) as (d & u & -> & D). cbn in E. injection E as E _. now apply D.
  - injection E as -> E. destruct (IH _ _ _ _ H' E) as [-> ->]. now split.
Qed.
Definition marks (s : str) : nat := List.length (filter (N.eqb 93) s).
Lemma esc_len : forall s, List.length (esc s) = List.length s + marks s.
Proof.
  unfold marks. induction s as [|c s IH]; [reflexivity|]. unfold esc in *. cbn [flat_map filter List.length]. rewrite app_length. rewrite (N.eqb_sym 93 c). destruct (N.eqb c 93); cbn [List.length]; unfold char, str in *; lia.
Qed.
Lemma esc_marks : forall s, marks (esc s) = marks s.
Proof.
  unfold marks. induction s as [|c s IH]; [reflexivity|]. unfold esc in *. cbn [flat_map filter]. rewrite filter_app, app_length. destruct (N.eqb_spec c 93) as [->|N]; [cbn; unfold char, str in *; lia|]. cbn [filter]. destruct (N.eqb_spec 93 c) as [E|_]; [congruence|]. cbn; unfold char, str in *; lia.
Qed.
Lemma brackets_marks : forall k, marks (brackets k) = k.
Proof.
  induction k as [|k IH]; [reflexivity|]. cbn [brackets]. pose proof (esc_marks (brackets k)) as E. unfold marks in *. rewrite !filter_app, !app_length. cbn. unfold char, str in *. lia.
Qed.
Lemma brackets_len : forall k, 2 * List.length (brackets k) = k * k + 3 * k + 2.
Proof.
  induction k as [|k IH]; [reflexivity|]. cbn [brackets]. pose proof (esc_len (brackets k)) as E. rewrite brackets_marks in E. rewrite !app_length. cbn [lit map list_ascii_of_string List.length]. unfold char, str in *. nia.
Qed.
Lemma brackets_ends : forall k t, brackets k <> t ++ [92%N].
Proof. intros [|k] t E; cbn [brackets] in E; [destruct t as [|? [|]]; discriminate|]. rewrite app_assoc in E. apply app_inj_tail in E as [_ E]. discriminate. Qed.
Lemma esc_in : forall s c, In c (esc s) -> In c s \/ c = 92%N.
Proof.
  intros s c H. unfold esc in H. apply in_flat_map in H as (x & I & H). destruct (N.eqb_spec x 93) as [->|_]; cbn in H; [destruct H as [<-|[<-|[]]]; auto|destruct H as [<-|[]]; auto].
Qed.
Lemma brackets_in : forall k c, In c (brackets k) -> In c (lit "a[]\").
Proof.
  induction k as [|k IH]; intros c H; cbn [brackets] in H; [destruct H as [<-|[]]; now left|].
  apply in_app_or in H as [[<-|[]]|H]; [cbn; tauto|]. apply in_app_or in H as [H|[<-|[]]]; [|cbn; tauto]. apply esc_in in H as [H|E]; [auto|]. subst c. cbn. tauto.
Qed.
Lemma brackets_head : forall k, exists c t, esc (brackets k) = c :: t /\ In c (lit "a[").
Proof. intros [|k]; [exists 97%N, []; split; [reflexivity|now left]|]. cbn [brackets]. unfold esc. cbn [app flat_map lit map list_ascii_of_string]. eexists _, _. split; [reflexivity|]. cbn. tauto. Qed.
Lemma nested_size : forall k, 2 ^ k <= inlines_size (nested k).
Proof. induction k as [|k IH]; [cbn; lia|]. unfold inlines_size, SpecSize.total in *. cbn [nested map fold_right inline_size]. unfold SpecSize.total in *. rewrite Nat.pow_succ_r'. lia. Qed.

Section Refute.
  Variables (entities : str -> option str) (punct : char -> bool) (upper : char -> str).
  Let cfg := default_config entities punct upper.
  Lemma brackets_read : forall k, k <= 44 -> SpecInline.reads cfg (brackets k) (nested k).
  Proof.
    induction k as [|k IH]; intros Hk.
    - apply inline_many0_reads; [split; intros ? E; discriminate E|discriminate|]. vm_compute. reflexivity.
    - specialize (IH ltac:(lia)). cbn [nested]. apply (Reads cfg _ [ILinkReference (LinkReference (nested k) (nested k))]); [|constructor|intros a s t b E; destruct a as [|? [|]]; discriminate E].
      destruct (brackets_head k) as (c0 & t0 & EH & CH).
      assert (B : bracket_at (brackets (S k)) (brackets k) []).
      { exists (esc (brackets k)). split; [reflexivity|]. split; [apply esc_label, brackets_ends|]. split.
        - pose proof (brackets_len k). nia.
        - destruct k; cbn [brackets]; apply Exists_cons_hd; split; discriminate. }
      assert (U : forall t m, bracket_at (brackets (S k)) t m -> m = []).
      { intros t m (raw & E & L & _). cbn [brackets] in E. injection E as E. apply (label_unique _ _ (esc_label _ (brackets_ends k)) raw t [] m L) in E as [E _]. now symmetry. }
      change [ILinkReference (LinkReference (nested k) (nested k))] with (outcome IEmpty (behavior_of cfg (PReference (brackets k) None)) (ILinkReference (LinkReference (nested k) (nested k))) ++ []).
      eapply P_more; [|apply Yields; now apply B_short|apply P_end].
      unfold inline_rules, element_rules. cbn [app first_of]. right. split.
      { intros (p & r & _ & H). inversion H as [? ? ? [E _]]; subst. cbn [brackets] in E. discriminate E. }
      right. split.
      { intros (p & r & _ & H). inversion H as [? ? m ? ? ? X Y]; subst. apply U in X as ->. destruct Y as (w1 & s1 & s2 & s3 & w3 & E & _). discriminate E. }
      right. split.
      { intros (p & r & _ & H). inversion H as [l r' _ _ E]; subst. cbn [brackets] in E. rewrite EH in E. cbn in E. injection E as E _. subst c0. destruct CH as [CH|[CH|[]]]; discriminate CH. }
      left. split; [discriminate|]. apply R_shortcut; [exact B| |intros r' E; discriminate E].
      intros l r' (raw & E & _). discriminate E.
  Qed.
  Lemma brackets_document : forall k, k <= 44 ->
    parse_markdown cfg (lit "# " ++ brackets k) = Ok [] (Document [BHeading (Heading (Atx 1) (nested k))]).
  Proof.
    intros k Hk. apply document_reads. apply (reads_atx entities punct upper 1).
    - lia.
    - destruct k; cbn [brackets]; eexists _, _; (split; [reflexivity|]); repeat split; discriminate.
    - apply Forall_forall. intros c H. apply brackets_in in H. cbn in H. destruct H as [<-|[<-|[<-|[<-|[]]]]]; split; discriminate.
    - apply inline_many0_reads; [split; intros ? E; discriminate E|discriminate|]. now apply brackets_read.
  Qed.

  (** ** A wide header over narrow rows *)
  Definition wide_lines (n m : nat) : list (list str) := repeat (lit "a") n :: repeat (lit "-") n :: repeat [lit "a"] m.
  Definition wide (n m : nat) : str := pre 0 (join [c_nl] (map table_line (wide_lines n m))).
  Definition wide_table (n m : nat) : table :=
    Table (repeat [IText (lit "a")] n :: repeat ([IText (lit "a")] :: repeat [IText []] (pred n)) m) (repeat ANone n).
  Lemma rep_f2 : forall A B (R : A -> B -> Prop) a b n, R a b -> Forall2 R (repeat a n) (repeat b n).
  Proof. intros A B R a b n H. induction n; cbn; now constructor. Qed.
  Lemma a_read : inline_many0 cfg (lit "a") = Ok [] [IText (lit "a")].
  Proof. vm_compute. reflexivity. Qed.
  Lemma bars_in : forall cs c, In c (bars cs) -> c = c_sp \/ c = ch "|" \/ exists x, In x cs /\ In c x.
  Proof.
    induction cs as [|x cs IH]; intros c H; [destruct H|]. cbn [bars] in H. apply in_app_or in H as [H|[<-|H]]; [|auto|].
    - unfold framed in H. destruct H as [<-|H]; [auto|]. apply in_app_or in H as [H|[<-|[]]]; [|auto]. right. right. exists x. split; [now left|exact H].
    - apply IH in H as [H|[H|(y & H1 & H2)]]; auto. right. right. exists y. split; [now right|exact H2].
  Qed.
  Lemma wide_free : forall n m, 1 <= n -> Forall nl_free (map table_line (wide_lines n m)).
  Proof.
    intros n m Hn. apply Forall_forall. intros l I. apply in_map_iff in I as (cs & <- & I).
    assert (X : cs <> [] /\ forall x, In x cs -> x = lit "a" \/ x = lit "-").
    { destruct I as [<-|[<-|I]]; [split; [destruct n; [lia|discriminate]|intros x H; apply repeat_spec in H; auto]..|]. apply repeat_spec in I as ->. split; [discriminate|]. intros x [<-|[]]. now left. }
    destruct X as [X1 X2]. rewrite table_line_bars by exact X1. intros H. destruct H as [H|H]; [discriminate H|]. apply bars_in in H as [H|[H|(x & H1 & H2)]]; [discriminate H|discriminate H|].
    apply X2 in H1 as [-> | ->]; destruct H2 as [H2|[]]; discriminate H2.
  Qed.
  Lemma wide_document : forall n m, 1 <= n -> parse_markdown cfg (wide n m) = Ok [] (Document [BTable (wide_table n m)]).
  Proof.
    intros n m Hn. apply document_reads. unfold wide, wide_lines, wide_table.
    assert (CA : cell_read entities punct upper (lit "a") [IText (lit "a")]).
    { split; [repeat constructor; discriminate|]. exact a_read. }
    apply (reads_table_wide entities punct upper 0).
    - lia.
    - destruct n; [lia|discriminate].
    - now apply rep_f2.
    - apply rep_f2. split; [discriminate|]. exists 1. split; [lia|reflexivity].
    - now rewrite !repeat_length.
    - apply rep_f2. split; [discriminate|]. split; [repeat constructor; discriminate|]. rewrite repeat_length. destruct n as [|n]; [lia|]. cbn [pred map].
      eapply SpecBlock.row_next; [|apply inline_many0_reads; [split; intros ? E; discriminate E|discriminate|exact a_read]|].
      + exists [c_sp], [c_sp]. split; [reflexivity|]. repeat split; try (repeat constructor; fail).
        * intros c (t & E). injection E as <- _. reflexivity.
        * intros v c E. destruct v as [|? [|]]; try discriminate. injection E as <-. reflexivity.
      + clear Hn. induction n as [|n IH]; constructor. exact IH.
    - now apply wide_free.
  Qed.
  Lemma bars_len : forall c n, List.length (bars (repeat [c] n)) = 4 * n.
  Proof. intros c n. induction n as [|n IH]; [reflexivity|]. cbn [repeat bars]. rewrite app_length. cbn [List.length framed app]. lia. Qed.
  Lemma line_len : forall c n, 1 <= n -> List.length (table_line (repeat [c] n)) = 1 + 4 * n.
  Proof. intros c n H. rewrite table_line_bars by (destruct n; [lia|discriminate]). cbn [List.length]. now rewrite bars_len. Qed.
  Lemma join_len : forall l, List.length (join [c_nl] l) <= fold_right (fun x n => List.length x + 1 + n) 0 l.
  Proof.
    induction l as [|x l IH]; [cbn; lia|]. destruct l as [|y l]; [cbn; lia|]. change (join [c_nl] (x :: y :: l)) with (x ++ [c_nl] ++ join [c_nl] (y :: l)). rewrite !app_length. cbn [fold_right List.length] in *. unfold char, str in *. lia.
  Qed.
  Lemma wide_len : forall n m, 1 <= n -> List.length (wide n m) <= 8 * n + 6 * m + 4.
  Proof.
    intros n m H. unfold wide. rewrite pre_0. etransitivity; [apply join_len|]. unfold wide_lines. cbn [map fold_right]. pose proof (line_len (ch "a") n H) as LA. pose proof (line_len (ch "-") n H) as LB. change [ch "a"] with (lit "a") in LA. change [ch "-"] with (lit "-") in LB.
    assert (X : fold_right (fun (x : str) n => List.length x + 1 + n) 0 (map table_line (repeat [lit "a"] m)) = 6 * m).
    { clear. induction m as [|m IH]; [reflexivity|]. cbn [repeat map fold_right]. rewrite IH. change (List.length (table_line [lit "a"])) with 5. lia. }
    enough (Y : (1 + 4 * n) + 1 + ((1 + 4 * n) + 1 + 6 * m) <= 8 * n + 6 * m + 4) by (rewrite <- LA in Y at 1; rewrite <- LB in Y; rewrite <- X in Y at 1; exact Y). lia.
  Qed.
  Lemma wide_size : forall n m, 1 <= n -> n * m <= block_size (BTable (wide_table n m)).
  Proof.
    intros n m H. unfold wide_table. cbn [block_size map]. unfold SpecSize.total. cbn [fold_right].
    assert (X : n * m <= fold_right Nat.add 0 (map (fun row => 1 + SpecSize.total (map (fun c => 1 + inlines_size c) row)) (repeat ([IText (lit "a")] :: repeat [IText []] (pred n)) m))).
    { induction m as [|m IH]; [lia|]. cbn [repeat map fold_right].
      assert (Y : forall j, j <= SpecSize.total (map (fun c => 1 + inlines_size c) (repeat [IText []] j))).
      { clear. intros j. unfold SpecSize.total. induction j as [|j IH]; [cbn; lia|]. cbn [repeat map fold_right]. lia. }
      specialize (Y (pred n)). unfold SpecSize.total in *. cbn [fold_right] in *. rewrite Nat.mul_succ_r. lia. }
    unfold SpecSize.total in X. lia.
  Qed.
End Refute.
