(** C64 (continued): how far from the start of a text an escape works. *)
From Coq Require Import String.
From Verif Require Import Nom ParserConfig ParserInline SpecParser ParserPlain SpecInline SyntaxInline2 EscapeFacts.
From Verif Require Import ConformanceParser PropParser PropSyntax.
Import ListNotations.
Open Scope list_scope.

(** The claim fails behind EVERY piece of plain text, not only behind the one in
    [C64_escape_in_text_refuted]: whatever punctuation character is escaped and
    whatever follows, the backslash stays in the text that is read. *)
Theorem C64_behind_text_refuted : forall cfg, custom_ok cfg -> custom_inline cfg = None -> i_text cfg = Parse ->
  forall a c b l, a <> [] -> plain_text a -> is_ascii_punct c = true ->
  inline_many0 cfg (a ++ ch "\" :: c :: b) = Ok [] l ->
  exists t l', l = IText (a ++ ch "\" :: t) :: l'.
Proof.
  intros cfg Hc Hu Ht a c b l Na Pa Pc E. apply (backslash_kept cfg Hu Ht a c b l Na Pa Pc).
  apply (C69_inline_syntax cfg Hc); [rewrite Ht; discriminate|exact E].
Qed.
Print Assumptions C64_behind_text_refuted.

Example C64_behind_text_example : inline_many0 test_config (lit "price \$5 & \*more*") = Ok [] [IText (lit "price \$5 & \"); IEmphasis [IText (lit "more")]].
Proof. vm_compute. reflexivity. Qed.
