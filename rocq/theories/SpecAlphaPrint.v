(** Specification for C102: printing texts in different alphabets. *)
From Coq Require Import String NArith.
From Verif Require Export Ast MdPrinter SpecAlpha.
Import ListNotations.
Open Scope list_scope.

(** a one-to-one replacement of characters: ASCII characters are kept,
    whitespace remains whitespace, decimal digits digits; display widths and
    upper case correspond *)
Record respelling (uwidth : str -> nat) (upper : char -> str) (udigit : char -> bool) (f g : char -> char) : Prop := {
  rs_back : forall c, g (f c) = c;
  rs_ascii : forall c, (c < 128)%N -> f c = c;
  rs_space : forall c, is_whitespace (f c) = is_whitespace c;
  rs_width : forall s, uwidth (map f s) = uwidth s;
  rs_upper : forall c, (128 <= c)%N -> upper (f c) = map f (upper c);
  rs_digit : forall c, udigit (f c) = udigit c
}.

(** the HTML configuration with its anchor prefix respelled too *)
Definition spell_prefix (f : char -> char) (c : html_config) : html_config := HtmlConfig (hc_width c) (map f (hc_anchor_prefix c)).
