(** Numerals and scalar values, from first principles (specification). *)
From Coq Require Import NArith String.
From Verif Require Export Chars.
Import ListNotations.
Open Scope list_scope.

(** the digits, in order; letters in either case *)
Definition digit (base : N) (c : char) (v : N) : Prop :=
  (v < base)%N /\ (nth_error (lit "0123456789abcdef") (N.to_nat v) = Some c \/
                   nth_error (lit "0123456789ABCDEF") (N.to_nat v) = Some c).
Inductive numeral (base : N) : str -> N -> Prop :=
| num_one : forall c v, digit base c v -> numeral base [c] v
| num_more : forall s n c v, numeral base s n -> digit base c v -> numeral base (s ++ [c]) (base * n + v).
(** Unicode scalar values: no surrogates *)
Definition scalar (v : N) : Prop := (v < 55296)%N \/ (57344 <= v <= 1114111)%N.
(** what stands between "&#" and ";" for the value [v] *)
Definition reference_digits (s : str) (v : N) : Prop :=
  numeral 10 s v \/ exists x hs, s = x :: hs /\ In x (lit "xX") /\ numeral 16 hs v.
