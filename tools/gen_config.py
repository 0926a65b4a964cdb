#!/usr/bin/env python3
"""Generates rocq/theories/ConfigBuild.v and PropConfig.v: the builder methods of the four
configurations and what any sequence of their calls leaves behind."""
import re
src=open('/repo/src/parser/config.rs').read().split('\n')
def line(fn):
    for i,l in enumerate(src):
        if 'pub fn '+fn+'(' in l:
            j=i
            while src[j]!='    }': j+=1
            return f'{i+1}-{j+1}'
    raise Exception(fn)
F=[('allow_no_space_in_headings','bool'),('html_entities','str -> option str')]
B='blockquote github_alert heading_v1 heading_v2 thematic_break list code_block html_block footnote_definition link_definition table paragraph'.split()
I='autolink link footnote_reference reference_link hard_newline image code_span emphasis strikethrough text'.split()
F+=[('b_'+b,'behavior block') for b in B]+[('i_'+i,'behavior inline') for i in I]
F+=[('custom_block','option (parser (list block))'),('custom_inline','option (parser (list inline))'),('punct_table',''),('upper_table','')]
methods=[]  # (coq name, rust name, field, argtype or None, value)
methods.append(('with_allow_no_space_in_headings','with_allow_no_space_in_headings','allow_no_space_in_headings',None,'true'))
methods.append(('with_html_entities_map','with_html_entities_map','html_entities','str -> option str','v'))
for b in B: methods.append((f'with_block_{b}_behavior',)*2+('b_'+b,'behavior block','v'))
for b in I: methods.append((f'with_inline_{b}_behavior',)*2+('i_'+b,'behavior inline','v'))
methods.append(('with_custom_block_parser',)*2+('custom_block','parser (list block)','Some v'))
methods.append(('with_custom_inline_parser',)*2+('custom_inline','parser (list inline)','Some v'))
o=[]
w=o.append
w('''(** The builder methods of the configurations.  Generated by tools/gen_config.py. *)
From Verif Require Export ParserConfig MdPrinter.
Import ListNotations.

(** ** Parser: /repo/src/parser/config.rs.  Every method is "Self { field: value, ..self }". *)''')
for c,r,f,t,v in methods:
    w(f'(** parser/config.rs:{line(r)} *)')
    arg='' if t is None else f' (v : {t})'
    fields='\n    '.join(f'({v})' if g==f else f'({g} c)' for g,_ in F)
    w(f'Definition {c} (c : config){arg} : config :=\n  Config '+' '.join(f'({v})' if g==f else f'({g} c)' for g,_ in F)+'.')
w('(** one call of a builder method *)\nInductive parser_call :=')
for c,r,f,t,v in methods:
    w(f'| Call_{c}'+('' if t is None else f' (v : {t})'))
o[-1]+='.'
w('Definition parser_build1 (c : config) (k : parser_call) : config :=\n  match k with')
for c,r,f,t,v in methods: w(f'  | Call_{c}{"" if t is None else " v"} => {c} c{"" if t is None else " v"}')
w('  end.\nDefinition parser_build (calls : list parser_call) (c : config) : config := fold_left parser_build1 calls c.')
w('''
(** ** Markdown printer (methods modelled in MdPrinter.v: printer/config.rs:20-51) *)
Inductive md_call := Call_md_width (v : nat) | Call_md_spaces (v : nat) | Call_md_empty_line (v : bool).
Definition md_build1 (c : md_config) (k : md_call) : md_config :=
  match k with
  | Call_md_width v => with_width c v
  | Call_md_spaces v => with_spaces_before_list_item c v
  | Call_md_empty_line v => with_empty_line_before_list c v
  end.
Definition md_build (calls : list md_call) (c : md_config) : md_config := fold_left md_build1 calls c.
(** ** HTML printer *)
(** html_printer/config.rs:7-14 *)
Definition html_default : html_config := HtmlConfig 80 [].
(** html_printer/config.rs:18-20 *)
Definition html_with_width (c : html_config) (v : nat) : html_config := HtmlConfig v (hc_anchor_prefix c).
(** html_printer/config.rs:23-28 *)
Definition html_with_anchor_prefix (c : html_config) (v : str) : html_config := HtmlConfig (hc_width c) v.
Inductive html_call := Call_html_width (v : nat) | Call_html_prefix (v : str).
Definition html_build1 (c : html_config) (k : html_call) : html_config :=
  match k with Call_html_width v => html_with_width c v | Call_html_prefix v => html_with_anchor_prefix c v end.
Definition html_build (calls : list html_call) (c : html_config) : html_config := fold_left html_build1 calls c.
(** ** LaTeX printer *)
(** latex_printer/config.rs:154-168 *)
Definition latex_default : latex_config := LatexConfig 80 Tabular Verbatim.
(** latex_printer/config.rs:187-189 *)
Definition latex_with_width (c : latex_config) (v : nat) : latex_config := LatexConfig v (lc_table_style c) (lc_code_block_style c).
(** latex_printer/config.rs:208-213 *)
Definition latex_with_table_style (c : latex_config) (v : table_style) : latex_config := LatexConfig (lc_width c) v (lc_code_block_style c).
(** latex_printer/config.rs:232-237 *)
Definition latex_with_code_block_style (c : latex_config) (v : code_block_style) : latex_config := LatexConfig (lc_width c) (lc_table_style c) v.
Inductive latex_call := Call_latex_width (v : nat) | Call_latex_table (v : table_style) | Call_latex_code (v : code_block_style).
Definition latex_build1 (c : latex_config) (k : latex_call) : latex_config :=
  match k with
  | Call_latex_width v => latex_with_width c v
  | Call_latex_table v => latex_with_table_style c v
  | Call_latex_code v => latex_with_code_block_style c v
  end.
Definition latex_build (calls : list latex_call) (c : latex_config) : latex_config := fold_left latex_build1 calls c.

(** ** Specification: the last call that names a setting decides it *)
Definition last_set {C V} (names : C -> option V) (calls : list C) (before : V) : V :=
  fold_left (fun v k => match names k with Some v' => v' | None => v end) calls before.
Lemma last_set_hit {C V} (names : C -> option V) a k b v before : names k = Some v -> Forall (fun k => names k = None) b -> last_set names (a ++ k :: b) before = v.
Proof.
  intros H F. unfold last_set. rewrite fold_left_app. cbn [fold_left]. rewrite H. generalize (Some v). intros _. clear H. induction F as [|x b E F IH]; [reflexivity|]. cbn [fold_left]. now rewrite E.
Qed.
Lemma last_set_none {C V} (names : C -> option V) calls before : Forall (fun k => names k = None) calls -> last_set names calls before = before.
Proof. intros F. unfold last_set. induction F as [|x b E F IH]; [reflexivity|]. cbn [fold_left]. now rewrite E. Qed.
Lemma build_last {R C V} (step : R -> C -> R) (names : C -> option V) (field : R -> V) :
  (forall c k, field (step c k) = match names k with Some v => v | None => field c end) ->
  forall calls c, field (fold_left step calls c) = last_set names calls (field c).
Proof. intros H calls. induction calls as [|k calls IH]; intros c; [reflexivity|]. cbn [fold_left last_set]. rewrite IH. unfold last_set. cbn [fold_left]. now rewrite H. Qed.''')
names={}
for c,r,f,t,v in methods:
    ty=dict(F)[f]
    w(f'Definition names_{f} (k : parser_call) : option ({ty}) := match k with Call_{c}{"" if t is None else " v"} => Some ({v}) | _ => None end.')
w('(** which method a call calls *)\nDefinition method_of (k : parser_call) : nat :=\n  match k with')
for i,(c,r,f,t,v) in enumerate(methods): w(f'  | Call_{c}{"" if t is None else " _"} => {i}')
w('  end.')
open('/verif/rocq/theories/ConfigBuild.v','w').write('\n'.join(o)+'\n')

o=[]; w=o.append
w('''(** Property C73: the configuration builders.  Specification: [last_set names calls before]
    (ConfigBuild.v) is the value in the last of the [calls] that names the setting ([last_set_hit]), and
    [before] if none does ([last_set_none]); [names_x k] says which value the call [k] gives to the setting
    [x].  Generated by tools/gen_config.py. *)
From Coq Require Import String List.
From Verif Require Import ConfigBuild ParserBlock.
Import ListNotations. Open Scope list_scope.

(** Whatever is called, in whatever order and how often: every setting has the value of the last
    call of its own method, or the one it had before. *)
Theorem C73_parser_settings : forall calls c, let r := parser_build calls c in''')
fs=[m[2] for m in methods]
w('  '+' /\\\n  '.join(f'{f} r = last_set names_{f} calls ({f} c)' for f in fs)+' /\\\n  punct_table r = punct_table c /\\ upper_table r = upper_table c.')
w('''Proof.
  intros calls c. cbv zeta. unfold parser_build.
''')
for f in fs: w(f'  apply conj; [apply (build_last parser_build1 names_{f} {f}); intros c0 k; destruct k; reflexivity|].')
w('''  split.
  - revert c. induction calls as [|k calls IH]; intros c; [reflexivity|]. cbn [fold_left]. rewrite IH. now destruct k.
  - revert c. induction calls as [|k calls IH]; intros c; [reflexivity|]. cbn [fold_left]. rewrite IH. now destruct k.
Qed.
Print Assumptions C73_parser_settings.
(** Calls of different methods can be exchanged ... *)
Theorem C73_parser_exchange : forall k1 k2, method_of k1 <> method_of k2 -> forall a b c,
  parser_build (a ++ k1 :: k2 :: b) c = parser_build (a ++ k2 :: k1 :: b) c.
Proof.
  intros k1 k2 N a b c. unfold parser_build. rewrite !fold_left_app. cbn [fold_left]. f_equal. generalize (fold_left parser_build1 a c). intros r.
  destruct k1, k2; try reflexivity; exfalso; now apply N.
Qed.
Print Assumptions C73_parser_exchange.
(** ... and only the last call of a method counts, whatever is called in between. *)
Theorem C73_parser_override : forall k1 k2, method_of k1 = method_of k2 -> forall a m b c,
  parser_build (a ++ k1 :: m ++ k2 :: b) c = parser_build (a ++ m ++ k2 :: b) c.
Proof.
  intros k1 k2 E a m b c. unfold parser_build. rewrite !fold_left_app. cbn [fold_left]. rewrite !fold_left_app. cbn [fold_left]. f_equal. generalize (fold_left parser_build1 a c). intros r. clear c a b.
  assert (S : forall r, parser_build1 (parser_build1 r k1) k2 = parser_build1 r k2) by (intros r'; destruct k1, k2; try discriminate E; reflexivity).
  revert r. induction m as [|k m IH]; intros r; cbn [fold_left]; [apply S|].
  destruct (Nat.eq_dec (method_of k) (method_of k1)) as [X|X].
  - assert (Y : parser_build1 (parser_build1 r k1) k = parser_build1 r k) by (destruct k1, k; try discriminate X; reflexivity). now rewrite Y.
  - assert (Y : parser_build1 (parser_build1 r k1) k = parser_build1 (parser_build1 r k) k1) by (destruct k1, k; try reflexivity; exfalso; now apply X). rewrite Y. apply IH.
Qed.
Print Assumptions C73_parser_override.
Theorem C73_markdown_settings : forall calls c, let r := md_build calls c in
  md_width r = last_set (fun k => match k with Call_md_width v => Some v | _ => None end) calls (md_width c) /\\
  md_spaces_before_list_item r = last_set (fun k => match k with Call_md_spaces v => Some v | _ => None end) calls (md_spaces_before_list_item c) /\\
  md_empty_line_before_list r = last_set (fun k => match k with Call_md_empty_line v => Some v | _ => None end) calls (md_empty_line_before_list c).
Proof. intros calls c. cbv zeta. unfold md_build. split; [|split]; apply build_last; intros c0 k; destruct k; reflexivity. Qed.
Print Assumptions C73_markdown_settings.
Theorem C73_html_settings : forall calls c, let r := html_build calls c in
  hc_width r = last_set (fun k => match k with Call_html_width v => Some v | _ => None end) calls (hc_width c) /\\
  hc_anchor_prefix r = last_set (fun k => match k with Call_html_prefix v => Some v | _ => None end) calls (hc_anchor_prefix c).
Proof. intros calls c. cbv zeta. unfold html_build. split; apply build_last; intros c0 k; destruct k; reflexivity. Qed.
Print Assumptions C73_html_settings.
Theorem C73_latex_settings : forall calls c, let r := latex_build calls c in
  lc_width r = last_set (fun k => match k with Call_latex_width v => Some v | _ => None end) calls (lc_width c) /\\
  lc_table_style r = last_set (fun k => match k with Call_latex_table v => Some v | _ => None end) calls (lc_table_style c) /\\
  lc_code_block_style r = last_set (fun k => match k with Call_latex_code v => Some v | _ => None end) calls (lc_code_block_style c).
Proof. intros calls c. cbv zeta. unfold latex_build. split; [|split]; apply build_last; intros c0 k; destruct k; reflexivity. Qed.
Print Assumptions C73_latex_settings.
(** the heading option cannot be taken back, every other setting can *)
Theorem C73_no_space_stays : forall calls c, allow_no_space_in_headings c = true -> allow_no_space_in_headings (parser_build calls c) = true.
Proof. intros calls. induction calls as [|k calls IH]; intros c H; [exact H|]. apply IH. now destruct k. Qed.
Print Assumptions C73_no_space_stays.
Example C73_nonvacuous : md_build [Call_md_width 10; Call_md_spaces 3; Call_md_width 20] md_default = MdConfig 20 3 true /\\
  (let c := parser_build [Call_with_block_table_behavior Ignore; Call_with_allow_no_space_in_headings; Call_with_block_table_behavior Skip] (default_config (fun _ => None) (fun _ => false) (fun c => [c])) in
   b_table c = Skip /\\ allow_no_space_in_headings c = true /\\ b_list c = Parse).
Proof. repeat split. Qed.''')
open('/verif/rocq/theories/PropConfig.v','w').write('\n'.join(o)+'\n')
