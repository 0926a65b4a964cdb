(** Numerals: the positional values the parser computes. *)
From Coq Require Import NArith String Lia Bool.
From Verif Require Import SpecNum ParserInline.
Import ListNotations.
Open Scope list_scope.

Lemma scalar_iff : forall v, is_scalar v = true <-> scalar v.
Proof. intro v. unfold is_scalar, scalar. rewrite orb_true_iff, andb_true_iff, N.ltb_lt, !N.leb_le. reflexivity. Qed.
Lemma digit10 : forall c v, digit 10 c v <-> is_digit c = true /\ v = (c - 48)%N.
Proof.
  intros c v. unfold digit, is_digit. rewrite andb_true_iff, !N.leb_le. split.
  - intros [L H]. assert (K : exists n, n < 10 /\ v = N.of_nat n) by (exists (N.to_nat v); lia). destruct K as (n & Ln & ->). rewrite Nat2N.id in H.
    do 10 (destruct n as [|n]; [cbn in H; destruct H as [H|H]; injection H as <-; cbn; lia|]). lia.
  - intros [[L1 L2] ->]. assert (K : exists n, n < 10 /\ c = (48 + N.of_nat n)%N) by (exists (N.to_nat (c - 48)); lia). destruct K as (n & Ln & ->).
    split; [lia|]. left. replace (48 + N.of_nat n - 48)%N with (N.of_nat n) by lia. rewrite Nat2N.id.
    do 10 (destruct n as [|n]; [reflexivity|]). lia.
Qed.
Lemma digit16 : forall c v, digit 16 c v <-> is_hex c = true /\ v = hex_val c.
Proof.
  intros c v. unfold digit. split.
  - intros [L H]. assert (K : exists n, n < 16 /\ v = N.of_nat n) by (exists (N.to_nat v); lia). destruct K as (n & Ln & ->). rewrite Nat2N.id in H.
    do 16 (destruct n as [|n]; [cbn in H; destruct H as [H|H]; injection H as <-; split; reflexivity|]). lia.
  - intros [H ->]. unfold is_hex, is_digit in H. rewrite !orb_true_iff, !andb_true_iff, !N.leb_le in H.
    destruct H as [[H|H]|H].
    + assert (K : exists n, n < 10 /\ c = (48 + N.of_nat n)%N) by (exists (N.to_nat (c - 48)); lia). destruct K as (n & Ln & ->).
      do 10 (destruct n as [|n]; [split; [reflexivity|left; reflexivity]|]). lia.
    + assert (K : exists n, n < 6 /\ c = (65 + N.of_nat n)%N) by (exists (N.to_nat (c - 65)); lia). destruct K as (n & Ln & ->).
      do 6 (destruct n as [|n]; [split; [reflexivity|right; reflexivity]|]). lia.
    + assert (K : exists n, n < 6 /\ c = (97 + N.of_nat n)%N) by (exists (N.to_nat (c - 97)); lia). destruct K as (n & Ln & ->).
      do 6 (destruct n as [|n]; [split; [reflexivity|left; reflexivity]|]). lia.
Qed.
Lemma numeral_value : forall base f (val : char -> N), (forall c v, digit base c v <-> f c = true /\ v = val c) ->
  forall s v, numeral base s v <-> s <> [] /\ Forall (fun c => f c = true) s /\ v = fold_left (fun acc c => (base * acc + val c)%N) s 0%N.
Proof.
  intros base f val D s v. split.
  - intro H. induction H as [c v H|s n c v _ (N & F & ->) H]; apply D in H as [H ->].
    + split; [discriminate|]. split; [now repeat constructor|]. cbn. lia.
    + split; [destruct s; discriminate|]. split; [apply Forall_app; now split; [|repeat constructor]|]. now rewrite fold_left_app.
  - intros (N & F & ->). revert N F. induction s as [|c s IH] using rev_ind; [congruence|]. intros _ F. apply Forall_app in F as [F1 F2]. inversion F2; subst.
    rewrite fold_left_app. cbn [fold_left]. destruct s as [|d s].
    + cbn [fold_left app]. rewrite N.mul_0_r, N.add_0_l. apply num_one. now apply D.
    + apply num_more; [apply IH; [discriminate|assumption]|now apply D].
Qed.
Lemma numeral_dec : forall s v, numeral 10 s v <-> s <> [] /\ Forall (fun c => is_digit c = true) s /\ v = dec_value s.
Proof. exact (numeral_value 10 is_digit digit_val digit10). Qed.
Lemma numeral_hex : forall s v, numeral 16 s v <-> s <> [] /\ Forall (fun c => is_hex c = true) s /\ v = hex_value s.
Proof. exact (numeral_value 16 is_hex hex_val digit16). Qed.
