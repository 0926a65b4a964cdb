(** Property C101: texts in any alphabet are parsed alike.
    Specification: SpecAlpha.v. *)
From Coq Require Import String List NArith Lia.
From Verif Require Import SpecParser ParserBlock ParserInlineFacts ParserConfig ConformanceParser ParserTotal SyntaxDoc CharTree AlphaFacts SpecAlpha.
Import ListNotations.
Open Scope list_scope.

(** Exchanging non-ASCII characters for others of the same class (whitespace,
    punctuation, with the same upper case) in a source without "&" exchanges
    them in the document, and does nothing else: the structure is the same. *)
Theorem C101_any_alphabet : forall cfg f g s, exchange cfg f g -> no_user_code cfg -> i_text cfg <> Ignore -> b_paragraph cfg <> Ignore ->
  ~ In (ch "&") s ->
  exists d, parse_markdown cfg s = Ok [] d /\ parse_markdown cfg (map f s) = Ok [] (spell f d).
Proof.
  intros cfg f g s H Hu Ht Hp A. destruct (parse_total cfg (no_user_ok cfg Hu) Ht Hp s) as (d & E). exists d. split; [exact E|].
  apply (parse_markdown_blocks cfg (no_user_ok cfg Hu) Ht Hp). apply (parse_markdown_blocks cfg (no_user_ok cfg Hu) Ht Hp) in E.
  apply (proj2 (proj2 (proj2 (block_spelled cfg Hu f g H))) _ _ E). apply Forall_forall. intros c I ->. now apply A.
Qed.
Print Assumptions C101_any_alphabet.

(** In particular two characters of the same class can change places. *)
Definition swap (a b c : char) : char := if N.eqb c a then b else if N.eqb c b then a else c.
Definition caseless (cfg : config) (a : char) : Prop :=
  upper_table cfg a = [a] /\ forall c, (128 <= c)%N -> c <> a -> ~ In a (upper_table cfg c).
Theorem C101_like_characters : forall cfg a b s, (128 <= a)%N -> (128 <= b)%N ->
  is_whitespace a = is_whitespace b -> punct_table cfg a = punct_table cfg b -> caseless cfg a -> caseless cfg b ->
  no_user_code cfg -> i_text cfg <> Ignore -> b_paragraph cfg <> Ignore -> ~ In (ch "&") s ->
  exists d, parse_markdown cfg s = Ok [] d /\ parse_markdown cfg (map (swap a b) s) = Ok [] (spell (swap a b) d).
Proof.
  intros cfg a b s La Lb W P [Ca Na] [Cb Nb] Hu Ht Hp A. apply (C101_any_alphabet cfg _ (swap a b)); try assumption.
  assert (T : forall c, swap a b (swap a b c) = c).
  { intro c. unfold swap. destruct (N.eqb_spec c a) as [->|X]; [destruct (N.eqb_spec b a) as [->|Y]; [reflexivity|now rewrite N.eqb_refl]|].
    destruct (N.eqb_spec c b) as [->|Y]; [now rewrite N.eqb_refl|]. apply N.eqb_neq in X as ->. apply N.eqb_neq in Y as ->. reflexivity. }
  constructor; auto.
  - intros c L. unfold swap. destruct (N.eqb_spec c a) as [->|X]; [lia|]. destruct (N.eqb_spec c b) as [->|Y]; [lia|reflexivity].
  - intros c. unfold swap. destruct (N.eqb_spec c a) as [->|X]; [now symmetry|]. destruct (N.eqb_spec c b) as [->|Y]; [now symmetry|reflexivity].
  - intros c. unfold swap. destruct (N.eqb_spec c a) as [->|X]; [now symmetry|]. destruct (N.eqb_spec c b) as [->|Y]; [now symmetry|reflexivity].
  - intros c L. unfold swap at 1. destruct (N.eqb_spec c a) as [->|X]; [rewrite Ca, Cb; unfold swap; cbn [map]; now rewrite N.eqb_refl|].
    destruct (N.eqb_spec c b) as [->|Y].
    + rewrite Ca, Cb. unfold swap. cbn [map]. rewrite N.eqb_refl. destruct (N.eqb_spec b a) as [->|Z0]; [reflexivity|reflexivity].
    + symmetry. rewrite <- (map_id (upper_table cfg c)) at 2. apply map_ext_in. intros x I. unfold swap.
      destruct (N.eqb_spec x a) as [->|X1]; [now elim (Na c L X)|]. destruct (N.eqb_spec x b) as [->|Y1]; [now elim (Nb c L Y)|reflexivity].
Qed.
Print Assumptions C101_like_characters.

(** ** The hypotheses are met: "é" and "ж" change places *)
Definition latin : str := lit "# " ++ [233%N] ++ lit " *" ++ [233%N; 1078%N] ++ lit "*" ++ [10%N; 10%N] ++ lit "- [x](/" ++ [1078%N] ++ lit ")".
Example C101_nonvacuous :
  caseless test_config 233%N /\ caseless test_config 1078%N /\
  exists d, parse_markdown test_config latin = Ok [] d /\ parse_markdown test_config (map (swap 233%N 1078%N) latin) = Ok [] (spell (swap 233%N 1078%N) d) /\
  d = Document [BHeading (Heading (Atx 1) [IText [233%N; 32%N]; IEmphasis [IText [233%N; 1078%N]]]);
                BList (MkList (Bullet Dash) [ListItem None [BParagraph [ILink (Link [47%N; 1078%N] None [IText (lit "x")])]]])].
Proof.
  split; [|split].
  - split; [reflexivity|]. intros c L N [E|[]]. now apply N.
  - split; [reflexivity|]. intros c L N [E|[]]. now apply N.
  - eexists. split; [|split].
    + vm_compute. reflexivity.
    + vm_compute. reflexivity.
    + reflexivity.
Qed.
(** with "&" the statement fails: the value of a reference is not exchanged *)
Example C101_references :
  let s := lit "&#233;" in
  exists d, parse_markdown test_config s = Ok [] d /\ parse_markdown test_config (map (swap 233%N 1078%N) s) = Ok [] d /\ spell (swap 233%N 1078%N) d <> d.
Proof. eexists. split; [vm_compute; reflexivity|]. split; [vm_compute; reflexivity|]. vm_compute. discriminate. Qed.
