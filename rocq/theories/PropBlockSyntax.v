(** C70: the block syntax.  [SpecBlock.v] gives the grammar of a document as
    relations on strings; the parser reads exactly what the grammar says. *)
From Coq Require Import String Lia.
From Verif Require Import SpecParser Nom ParserInline ParserInlineFacts ParserBlock ParserTotal ConformanceParser SpecInline SpecBlock SyntaxFacts SyntaxInline2 SyntaxDoc PropSyntax.
Import ListNotations.
Open Scope list_scope.

(** Every configuration: any block or inline element switched off, hooked or
    skipped, any well-behaved custom parsers, any Unicode tables. *)
Theorem C70_block_syntax : forall cfg, custom_ok cfg -> i_text cfg <> Ignore -> b_paragraph cfg <> Ignore ->
  forall s d, parse_markdown cfg s = Ok [] d <-> blocks cfg s (d_blocks d).
Proof. exact parse_markdown_blocks. Qed.
Print Assumptions C70_block_syntax.
(** the grammar gives every input exactly one reading *)
Theorem C70_one_reading : forall cfg, custom_ok cfg -> i_text cfg <> Ignore -> b_paragraph cfg <> Ignore ->
  forall s, exists l, blocks cfg s l /\ forall l', blocks cfg s l' -> l' = l.
Proof.
  intros cfg Hc Ht Hp s. destruct (parse_total cfg Hc Ht Hp s) as [d E]. exists (d_blocks d). split; [now apply C70_block_syntax|].
  intros l' H. apply (C70_block_syntax cfg Hc Ht Hp s (Document l')) in H. rewrite E in H. now injection H as ->.
Qed.
Print Assumptions C70_one_reading.
(** the parser of the blocks: one block is taken per step, after blank lines *)
Theorem C70_one_block : forall cfg, custom_ok cfg -> i_text cfg <> Ignore -> b_paragraph cfg <> Ignore ->
  forall s o r, block_ cfg s = Ok r o <->
    exists bl m h, repeated blank_line s bl m /\ first_of (block_rules cfg) m h r /\ makes_all cfg h o.
Proof.
  intros cfg Hc Ht Hp s o r. pose proof (exact_step_block cfg Hc Ht Hp) as [_ X]. rewrite (X s r o). clear X. unfold step_block, emits.
  pose proof (blocks_RB cfg Hc Ht Hp) as RB. split.
  - intros (bl & m & Bl & h & F & G). exists bl, m, h. split; [exact Bl|]. split; [exact F|]. destruct G as [(b & M & ->)| ->]; [|constructor]. constructor.
    inversion M as [| | | | | |k items l F2| | | |h' t (header & rows & al & h1 & l & -> & -> & R1 & R2)|]; subst; constructor; try (apply RB; assumption); try assumption.
    clear - F2 RB. induction F2 as [|(t & x) i items l (bs & B & ->) F2 IH]; constructor; [now apply RB|exact IH].
  - intros (bl & m & h & Bl & F & G). exists bl, m. split; [exact Bl|]. exists h. split; [exact F|]. apply (blocks_sound cfg Hc Ht Hp), G.
Qed.
Print Assumptions C70_one_block.

Definition nl : string := String (Ascii.ascii_of_nat 10) EmptyString.
Definition sample : str := lit (
"# Title" ++ nl ++
nl ++
"Some *text*" ++ nl ++
"on two lines" ++ nl ++
"===" ++ nl ++
"> quoted" ++ nl ++
"> - item" ++ nl ++
nl ++
"1. one" ++ nl ++
"   more" ++ nl ++
"2. [x] two" ++ nl ++
nl ++
"~~~ rust" ++ nl ++
"code" ++ nl ++
"~~~" ++ nl ++
"| a | b |" ++ nl ++
"|:--|--:|" ++ nl ++
"| c \| d |" ++ nl ++
"[ref]: <dest> 'title'" ++ nl ++
"***")%string.
Example C70_example : blocks test_config sample
  [BHeading (Heading (Atx 1) [IText (lit "Title")]);
   BHeading (Heading (Setext Level1) [IText (lit "Some "); IEmphasis [IText (lit "text")]; IText (c_nl :: lit "on two lines")]);
   BBlockQuote [BParagraph [IText (lit "quoted")]; BList (MkList (Bullet Dash) [ListItem None [BParagraph [IText (lit "item")]]])];
   BList (MkList (Ordered 1) [ListItem None [BParagraph [IText (lit "one" ++ c_nl :: lit "more")]]; ListItem (Some Complete) [BParagraph [IText (lit "two")]]]);
   BCodeBlock (CodeBlock (Fenced (Some (lit " rust"))) (lit "code"));
   BTable (Table [[[IText (lit "a")]; [IText (lit "b")]]; [[IText (lit "c | d")]; [IText []]]] [ALeft; ARight]);
   BDefinition (LinkDefinition [IText (lit "ref")] (lit "dest") (Some (lit "title")));
   BThematicBreak].
Proof.
  apply (C70_block_syntax test_config test_config_custom ltac:(discriminate) ltac:(discriminate) sample (Document _)). vm_compute. reflexivity.
Qed.
