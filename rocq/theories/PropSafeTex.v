(** C94: the LaTeX of untrusted Markdown holds formatting commands only.
    Specification: SpecSafeTex.v (the commands of a LaTeX text). *)
From Coq Require Import String List.
From Verif Require Import Chars SpecParser Nom ParserConfig ParserBlock PropParser SafeParse PropLatex SpecSafeTex TexSafeFacts.
Import ListNotations.
Open Scope list_scope.

(** For every source, if code blocks are ignored or skipped and there is no user
    code: whatever the source says, the commands of the output are those of the
    printer; the author of the source can put in none. *)
Theorem C94_commands : forall cfg s d, no_user_code cfg -> i_text cfg <> Ignore -> b_paragraph cfg <> Ignore ->
  b_code_block cfg = Ignore \/ b_code_block cfg = Skip -> parse_markdown cfg s = Ok [] d ->
  forall uw config, exists out, render_latex uw d config = Some out /\ Forall (fun n => In n formatting) (commands out).
Proof.
  intros cfg s d Hu Ht Hp Hc E uw config. destruct (C60_latex_view uw d config) as (out & R & L). exists out. split; [exact R|].
  apply (good_commands (tex_view config d)); [|exact L]. apply good_view. apply Forall_forall. intros b I. split.
  - intros c ->. apply (C50_no_switched_off_block cfg s [] d Hu E) in I as [I1 I2]. cbn in I1, I2. destruct Hc as [H|H]; rewrite H in *; congruence.
  - intros x bs ->. pose proof (proj1 (Forall_forall _ _) (parse_named cfg Hu s d Ht Hp E) _ I _ _ eq_refl) as (c & t & -> & A & T).
    constructor; [left; unfold is_alnum; now rewrite A|exact T].
Qed.
Print Assumptions C94_commands.
Definition cfg_code (b : behavior block) : config :=
  Config false (fun _ => None) Parse Parse Parse Parse Parse Parse b Parse Parse Parse Parse Parse
    Parse Parse Parse Parse Parse Parse Parse Parse Parse Parse None None (fun _ => false) (fun c => [c]).
(** The commands of a text are what TeX sees. *)
Example C94_scanner : commands (lit "\a\bc1 \{x\\y^^5c\z") = [lit "a"; lit "bc"; lit "{"; lit "\"; lit "^^"; lit "z"].
Proof. reflexivity. Qed.
(** An attempt to read a file: *)
Definition attack : str := lit "a \input{b} ^^5cinput `\input` <\input> [x](\input)

> [!Note]
> ![\input{x}](\input)
".
Example C94_nonvacuous : no_user_code (cfg_code Ignore) /\ exists d out,
  parse_markdown (cfg_code Ignore) attack = Ok [] d /\ List.length (doc_blocks d) = 3 /\
  render_latex (@List.length _) d (LatexConfig 80 Tabular Verbatim) = Some out /\
  List.length (commands out) = 17.
Proof. split; [now repeat constructor|]. do 2 eexists. split; [vm_compute; reflexivity|]. split; [reflexivity|]. split; vm_compute; reflexivity. Qed.
(** With code blocks on, a line of code can leave the verbatim environment. *)
Example C94_code_on : exists d out, parse_markdown (cfg_code Parse) (lit "```
\end{verbatim}\input{x}
```") = Ok [] d /\
  render_latex (@List.length _) d (LatexConfig 80 Tabular Verbatim) = Some out /\ In (lit "input") (commands out).
Proof. do 2 eexists. split; [vm_compute; reflexivity|]. split; [vm_compute; reflexivity|]. vm_compute. auto. Qed.
