(** C69: the inline syntax.  [SpecInline.v] gives the grammar as relations on
    strings; the parser reads exactly what the grammar says. *)
From Coq Require Import String.
From Verif Require Import SpecParser Nom ParserInline ParserInlineFacts ParserTotal ConformanceParser SpecInline SyntaxInline2.
Import ListNotations.
Open Scope list_scope.

(** Every configuration: any element switched off, hooked or skipped, any
    well-behaved custom parser, any table of character references and Unicode
    punctuation. *)
Theorem C69_inline_syntax : forall cfg, custom_ok cfg -> i_text cfg <> Ignore ->
  forall s l, inline_many0 cfg s = Ok [] l <-> reads cfg s l.
Proof. exact inline_many0_reads. Qed.
Print Assumptions C69_inline_syntax.
(** the grammar gives every text exactly one reading *)
Theorem C69_one_reading : forall cfg, custom_ok cfg -> i_text cfg <> Ignore ->
  forall s, exists l, reads cfg s l /\ forall l', reads cfg s l' -> l' = l.
Proof.
  intros cfg Hc Ht s. destruct (inline_many0_all cfg Hc Ht s) as [l E]. exists l. split; [now apply C69_inline_syntax|].
  intros l' H. apply C69_inline_syntax in H; [|assumption|assumption]. congruence.
Qed.
Print Assumptions C69_one_reading.
Lemma test_config_custom : custom_ok test_config. Proof. split; discriminate. Qed.
Example C69_example : reads test_config (lit "see [a *b*](<c d> 'e') or `x` & ~~f~~")
  [IText (lit "see "); ILink (Link (lit "c d") (Some (lit "e")) [IText (lit "a "); IEmphasis [IText (lit "b")]]);
   IText (lit " or "); ICode (lit "x"); IText (lit " & "); IStrikethrough [IText (lit "f")]].
Proof. apply C69_inline_syntax; [exact test_config_custom|discriminate|vm_compute; reflexivity]. Qed.
(** single rules, directly *)
Example C69_link_rule : r_link (lit "[a](b)c") (PLink (lit "a") (lit "b") None) (lit "c").
Proof.
  apply R_link with (m := lit "(b)c").
  - exists (lit "a"). split; [reflexivity|]. split; [now repeat constructor|]. split; [vm_compute; repeat constructor|]. apply Exists_cons_hd. split; discriminate.
  - exists [], (lit "b)c"), (lit ")c"), (lit ")c"), []. split; [reflexivity|]. split; [constructor|]. split.
    + change (lit "b)c") with (lit "b" ++ lit ")c"). apply dest_bare; [discriminate|now repeat constructor|].
      split; [reflexivity|]. split; [discriminate|]. intros (a & t & E & _). discriminate.
    + split; [now left|]. split; [reflexivity|constructor].
Qed.
Example C69_emphasis_rule : r_emphasis (fun _ => false) (lit "*a*") (PEmph 1 (lit "a")) [].
Proof.
  apply R_emphasis with (m := ch "*"); [now left|lia| |].
  - exists (ch "*"). split; [reflexivity|]. split; [now exists []|]. split; [|split; [discriminate|]].
    + exists (ch "a"), (lit "*"). split; [reflexivity|]. split; [reflexivity|]. discriminate.
    + apply up_char; [|intros [E _]; discriminate|].
      * intros (r & E & _). discriminate.
      * apply up_here. exists []. split; [reflexivity|]. intros c [t E]. discriminate.
  - intros n' t r L (m & E & _). assert (n' = 2 \/ n' = 3) as [-> | ->] by lia; discriminate.
Qed.
