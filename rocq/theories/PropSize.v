(** C99: how large a document can be.  Specification: SpecSize.v. *)
From Coq Require Import String List Lia.
From Verif Require Import SpecParser Nom ParserInline ParserInlineFacts ParserBlock ParserTotal SyntaxDoc SpecInline SpecBlock CharTree SpecSize SizeFacts SizeRefute.
Import ListNotations.
Open Scope list_scope.

(** Where reference links and tables are not read, a document is at most six
    times as large as its source. *)
Theorem C99_linear_partial : forall cfg s d, no_user_code cfg -> small_tables cfg -> i_text cfg <> Ignore -> b_paragraph cfg <> Ignore ->
  i_reference_link cfg <> Parse -> b_table cfg <> Parse ->
  parse_markdown cfg s = Ok [] d -> doc_size d <= 6 * List.length s.
Proof.
  intros cfg s d Hu Hs Ht Hp R T E. apply parse_markdown_blocks in E; [|now apply no_user_ok|assumption..].
  pose proof (blocks_bound cfg Hu Hs (fun n => 2 * n) ltac:(intros; cbv beta; lia) ltac:(cbv beta; lia) (or_introl R) (fun _ => 0) ltac:(intros; cbv beta; lia) (or_introl T) _ _ E) as H.
  unfold G in H. unfold doc_size, char, str in *. lia.
Qed.
Print Assumptions C99_linear_partial.
(** With tables it is at most quadratic ... *)
Theorem C99_quadratic_partial : forall cfg s d, no_user_code cfg -> small_tables cfg -> i_text cfg <> Ignore -> b_paragraph cfg <> Ignore ->
  i_reference_link cfg <> Parse ->
  parse_markdown cfg s = Ok [] d -> let n := List.length s in doc_size d <= n * n + 6 * n.
Proof.
  intros cfg s d Hu Hs Ht Hp R E n. apply parse_markdown_blocks in E; [|now apply no_user_ok|assumption..].
  pose proof (blocks_bound cfg Hu Hs (fun n => 2 * n) ltac:(intros; cbv beta; lia) ltac:(cbv beta; lia) (or_introl R) (fun n => n * n) ltac:(intros; cbv beta; nia) (or_intror (fun n => le_n _)) _ _ E) as H.
  unfold G in H. subst n. unfold doc_size, char, str in *. lia.
Qed.
Print Assumptions C99_quadratic_partial.
(** ... and in general exponential. *)
Theorem C99_exponential_partial : forall cfg s d, no_user_code cfg -> small_tables cfg -> i_text cfg <> Ignore -> b_paragraph cfg <> Ignore ->
  parse_markdown cfg s = Ok [] d -> let n := List.length s in doc_size d <= 2 ^ (n + 1) + n * n + 4 * n.
Proof.
  intros cfg s d Hu Hs Ht Hp E n. apply parse_markdown_blocks in E; [|now apply no_user_ok|assumption..].
  assert (P : forall k, 1 <= 2 ^ k). { intros k. pose proof (Nat.pow_nonzero 2 k ltac:(cbv beta; lia)). lia. }
  assert (A : forall a b, 2 * (2 ^ a - 1) + 2 * (2 ^ b - 1) <= 2 * (2 ^ (a + b) - 1)).
  { intros a b. rewrite Nat.pow_add_r. pose proof (P a). pose proof (P b). nia. }
  assert (B : forall k, 1 + 2 * (2 * (2 ^ k - 1)) <= 2 * (2 ^ (k + 2) - 1)).
  { intros k. rewrite Nat.pow_add_r. pose proof (P k). change (2 ^ 2) with 4. lia. }
  pose proof (blocks_bound cfg Hu Hs (fun n => 2 * (2 ^ n - 1)) A (le_n 2) (or_intror B) (fun n => n * n) ltac:(intros; cbv beta; nia) (or_intror (fun n => le_n _)) _ _ E) as H.
  unfold G in H. subst n. rewrite Nat.pow_add_r. unfold doc_size, char, str in *. change (2 ^ 1) with 2. lia.
Qed.
Print Assumptions C99_exponential_partial.

(** Neither condition of [C99_linear_partial] can be dropped.  Under the default
    configuration tables (whose short rows are filled up) outgrow every multiple
    of their source, ... *)
Theorem C99_table_refuted : forall entities punct upper c, exists s d,
  parse_markdown (default_config entities punct upper) s = Ok [] d /\ c * List.length s < doc_size d.
Proof.
  intros entities punct upper c. pose (n := 18 * c + 1). assert (N : n = 18 * c + 1) by reflexivity. clearbody n. exists (wide n n), (Document [BTable (wide_table n n)]).
  split; [apply wide_document; lia|]. pose proof (wide_len n n ltac:(lia)) as H. pose proof (wide_size n n ltac:(lia)) as H'.
  unfold doc_size, blocks_size. cbn [map d_blocks]. unfold total. cbn [fold_right]. unfold char, str in *. nia.
Qed.
Print Assumptions C99_table_refuted.
(** ... and brackets in brackets double the document at every level, the text of a
    reference being also its label: less than a thousand characters are read as
    2^40 nodes. *)
Theorem C99_reference_refuted : forall entities punct upper k, k <= 44 -> exists s d,
  List.length s <= (k + 2) * (k + 2) /\
  parse_markdown (default_config entities punct upper) s = Ok [] d /\ 2 ^ k <= doc_size d.
Proof.
  intros entities punct upper k Hk. exists (lit "# " ++ brackets k), (Document [BHeading (Heading (Atx 1) (nested k))]).
  split; [|split; [now apply brackets_document|]].
  - pose proof (brackets_len k). rewrite app_length. cbn [lit map list_ascii_of_string List.length]. unfold char, str in *. nia.
  - pose proof (nested_size k). unfold doc_size, blocks_size, total. cbn [map d_blocks fold_right block_size]. lia.
Qed.
Print Assumptions C99_reference_refuted.

Example C99_example : exists d, parse_markdown (default_config (fun _ => None) (fun _ => false) (fun c => [c])) (lit "- *some* `code`") = Ok [] d /\ doc_size d = 16.
Proof. eexists. split; vm_compute; reflexivity. Qed.
Example C99_nonvacuous : forall entities punct, (forall n v, entities n = Some v -> List.length v <= List.length n) ->
  let cfg := default_config entities punct (fun c => [c]) in no_user_code cfg /\ small_tables cfg /\ i_text cfg <> Ignore /\ b_paragraph cfg <> Ignore.
Proof. intros entities punct H. repeat split; try discriminate; repeat constructor; exact H. Qed.
