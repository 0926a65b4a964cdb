(** Characters and strings.

    A Rust [char] is a Unicode scalar value, modelled as an [N]; a Rust
    [String]/[&str] is modelled as the list of its scalar values.  Byte
    lengths are modelled separately ([utf8_len]) where the code uses them. *)
From Coq Require Export List NArith Bool Arith Lia.
From Coq Require Import String Ascii.
Export ListNotations.

Definition char := N.
Definition str := list char.

(** String literals of the source code. *)
Definition lit (s : string) : str := map N_of_ascii (list_ascii_of_string s).
Arguments lit s%string.

(** A character literal (first character of the literal). *)
Definition ch (s : string) : char := hd 0%N (lit s).
Arguments ch s%string.

Definition c_nl : char := 10%N.
Definition c_cr : char := 13%N.
Definition c_tab : char := 9%N.
Definition c_sp : char := 32%N.

(** [str] equality ([==] on [&str]). *)
Fixpoint str_eqb (a b : str) : bool :=
  match a, b with
  | [], [] => true
  | x :: a', y :: b' => N.eqb x y && str_eqb a' b'
  | _, _ => false
  end.

(** Rust [char::is_whitespace]: Unicode White_Space. *)
Definition is_whitespace (c : char) : bool :=
  ((9 <=? c) && (c <=? 13))%N || (c =? 32)%N || (c =? 133)%N || (c =? 160)%N
  || (c =? 5760)%N || ((8192 <=? c) && (c <=? 8202))%N || (c =? 8232)%N
  || (c =? 8233)%N || (c =? 8239)%N || (c =? 8287)%N || (c =? 12288)%N.

Definition is_digit (c : char) : bool := ((48 <=? c) && (c <=? 57))%N.
Definition is_upper (c : char) : bool := ((65 <=? c) && (c <=? 90))%N.
Definition is_lower (c : char) : bool := ((97 <=? c) && (c <=? 122))%N.
Definition is_alpha (c : char) : bool := is_upper c || is_lower c.
Definition is_alnum (c : char) : bool := is_alpha c || is_digit c.
Definition is_hex (c : char) : bool :=
  is_digit c || ((65 <=? c) && (c <=? 70))%N || ((97 <=? c) && (c <=? 102))%N.
(** [char::is_ascii_punctuation] *)
Definition is_ascii_punct (c : char) : bool :=
  ((33 <=? c) && (c <=? 47))%N || ((58 <=? c) && (c <=? 64))%N
  || ((91 <=? c) && (c <=? 96))%N || ((123 <=? c) && (c <=? 126))%N.
Definition is_ascii (c : char) : bool := (c <? 128)%N.

(** A Unicode scalar value: what [char::from_u32] accepts. *)
Definition is_scalar (c : N) : bool :=
  (c <? 55296)%N || ((57344 <=? c) && (c <=? 1114111))%N.

(** ASCII case folding (what [tag_no_case] amounts to on ASCII tags). *)
Definition to_lower (c : char) : char := if is_upper c then (c + 32)%N else c.
Definition to_upper_ascii (c : char) : char := if is_lower c then (c - 32)%N else c.

(** UTF-8 length of a character ([char::len_utf8]). *)
Definition utf8_len (c : char) : nat :=
  if (c <? 128)%N then 1 else if (c <? 2048)%N then 2
  else if (c <? 65536)%N then 3 else 4.
(** [str::len] (bytes). *)
Definition byte_len (s : str) : nat := fold_right (fun c n => utf8_len c + n) 0 s.

(** [str::trim_start], [str::trim_end], [str::trim] with Unicode whitespace. *)
Fixpoint trim_start_by (p : char -> bool) (s : str) : str :=
  match s with
  | c :: s' => if p c then trim_start_by p s' else s
  | [] => []
  end.
Fixpoint trim_end_by (p : char -> bool) (s : str) : str :=
  match s with
  | [] => []
  | c :: s' =>
      match trim_end_by p s' with
      | [] => if p c then [] else [c]
      | t => c :: t
      end
  end.
Definition trim_start := trim_start_by is_whitespace.
Definition trim_end := trim_end_by is_whitespace.
Definition trim (s : str) : str := trim_end (trim_start s).

(** [str::split_whitespace]: maximal runs of non-whitespace characters.
    [cur] is the word being read, reversed. *)
Fixpoint split_ws_aux (cur : str) (s : str) : list str :=
  match s with
  | [] => match cur with [] => [] | _ => [rev cur] end
  | c :: s' =>
      if is_whitespace c
      then match cur with
           | [] => split_ws_aux [] s'
           | _ => rev cur :: split_ws_aux [] s'
           end
      else split_ws_aux (c :: cur) s'
  end.
Definition split_whitespace (s : str) : list str := split_ws_aux [] s.

(** [[_]::join] *)
Fixpoint join (sep : str) (l : list str) : str :=
  match l with
  | [] => []
  | [x] => x
  | x :: l' => x ++ sep ++ join sep l'
  end.

(** [str::split(c)] for a single character. *)
Fixpoint split_on_aux (c : char) (cur : str) (s : str) : list str :=
  match s with
  | [] => [rev cur]
  | x :: s' => if N.eqb x c then rev cur :: split_on_aux c [] s'
               else split_on_aux c (x :: cur) s'
  end.
Definition split_on (c : char) (s : str) : list str := split_on_aux c [] s.

(** [str::starts_with] *)
Fixpoint starts_with (p s : str) : bool :=
  match p, s with
  | [], _ => true
  | x :: p', y :: s' => N.eqb x y && starts_with p' s'
  | _ :: _, [] => false
  end.

(** Decimal printing of a number ([u64::to_string] / [format!("{}", n)]).
    The fuel is the binary size of the number, always sufficient. *)
Fixpoint dec_digits (fuel : nat) (n : N) (acc : str) : str :=
  match fuel with
  | O => acc
  | S f => let d := (48 + N.modulo n 10)%N in
           if (n <? 10)%N then d :: acc else dec_digits f (N.div n 10) (d :: acc)
  end.
Definition dec (n : N) : str := dec_digits (S (N.size_nat n)) n [].

(** Left to right evaluation of a decimal numeral. *)
Definition digit_val (c : char) : N := (c - 48)%N.
Definition dec_value (s : str) : N :=
  fold_left (fun acc c => (10 * acc + digit_val c)%N) s 0%N.

(** [n] copies of a character ([str::repeat] on a one-character string). *)
Definition rep (n : nat) (c : char) : str := repeat c n.

Definition u64_max : N := 18446744073709551615%N.
