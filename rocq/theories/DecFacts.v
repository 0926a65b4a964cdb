(** Decimal numerals: [dec] prints the usual numeral of a number. *)
From Coq Require Import String List NArith Lia.
From Verif Require Export Chars.
Import ListNotations.
Open Scope list_scope.

Lemma pos_size_pow p : (N.pos p < 2 ^ N.of_nat (Pos.size_nat p))%N.
Proof.
  induction p; cbn [Pos.size_nat]; rewrite Nnat.Nat2N.inj_succ, N.pow_succ_r'; lia.
Qed.
Lemma size_pow n : (n < 2 ^ N.of_nat (S (N.size_nat n)))%N.
Proof.
  destruct n as [|p]; [reflexivity|]. cbn [N.size_nat]. rewrite Nnat.Nat2N.inj_succ, N.pow_succ_r'.
  pose proof (pos_size_pow p). lia.
Qed.
Lemma dec_value_app a c : dec_value (a ++ [c]) = (10 * dec_value a + digit_val c)%N.
Proof. unfold dec_value. now rewrite fold_left_app. Qed.
Lemma dec_digits_spec f : forall n acc, (n < 2 ^ N.of_nat f)%N -> 0 < f ->
  exists ds, dec_digits f n acc = ds ++ acc /\ dec_value ds = n /\ forallb is_digit ds = true /\
    (exists d l, ds = d :: l /\ (d = ch "0" -> l = [] /\ n = 0%N)).
Proof.
  induction f as [|f IH]; intros n acc L P; [lia|]. cbn [dec_digits].
  assert (D : forall m : N, (m < 10)%N -> is_digit (48 + m)%N = true /\ digit_val (48 + m)%N = m).
  { intros m M. unfold is_digit, digit_val. split; [|lia]. apply andb_true_iff. split; apply N.leb_le; lia. }
  assert (M : (n mod 10 < 10)%N) by (apply N.mod_lt; lia).
  destruct (N.ltb_spec n 10) as [S|S].
  - rewrite N.mod_small in * by auto. destruct (D n S) as [D1 D2]. exists [(48 + n)%N]. repeat split.
    + unfold dec_value; cbn [fold_left]. rewrite D2. lia.
    + cbn [forallb]. now rewrite D1.
    + exists (48 + n)%N, []. split; auto. intro E. change (ch "0") with 48%N in E. split; [reflexivity|lia].
  - rewrite Nnat.Nat2N.inj_succ, N.pow_succ_r' in L.
    assert (Dv : (n = 10 * (n / 10) + n mod 10)%N) by (apply N.div_mod'; lia).
    assert (P' : 0 < f) by (destruct f; [cbn in L; lia|lia]).
    destruct (IH (n / 10)%N ((48 + n mod 10)%N :: acc)) as (ds & E & V & F & d & l & -> & Z); [|exact P'|].
    { apply N.div_lt_upper_bound; lia. }
    destruct (D _ M) as [D1 D2].
    exists ((d :: l) ++ [(48 + n mod 10)%N]). repeat split.
    + rewrite E. now rewrite <- app_assoc.
    + rewrite dec_value_app, V, D2. lia.
    + rewrite forallb_app, F. cbn [forallb]. now rewrite D1.
    + exists d, (l ++ [(48 + n mod 10)%N]). split; auto. intro Q. apply Z in Q as [_ Q]. lia.
Qed.
(** the numeral has the right value, consists of digits and has no leading zero *)
Lemma dec_numeral n : dec_value (dec n) = n /\ forallb is_digit (dec n) = true /\
  exists d l, dec n = d :: l /\ (d = ch "0" -> l = [] /\ n = 0%N).
Proof.
  destruct (dec_digits_spec (S (N.size_nat n)) n []) as (ds & E & V & F & Z); [apply size_pow|lia|].
  unfold dec. rewrite E, app_nil_r. auto.
Qed.
