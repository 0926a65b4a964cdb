#!/usr/bin/env python3
"""Translate the repository's own Markdown printer tests (parse, render, compare)
into Coq Examples about the model, evaluated by vm_compute."""
import sys
sys.path.insert(0,'/verif/tools')
from conformance import tokenize
T='/repo/src/printer/tests/'
from conformance_md_lib import cs
def cases(toks):
    """string arguments of each case(...)"""
    res=[];i=0
    while i<len(toks):
        if toks[i]==('id','case') and toks[i+1]==('p','('):
            j=i+2;a=[]
            while toks[j]!=('p',')'):
                if toks[j][0]=='str': a.append(toks[j][1])
                j+=1
            res.append(a); i=j
        i+=1
    return res
out=[]
def ex(name,inp,exp,cfg): out.append(f'Example {name} : md_round {cfg} {cs(inp)} = Some {cs(exp)}.\nProof. vm_compute. reflexivity. Qed.\n')
src=open(T+'mod.rs').read()
for n,a in enumerate(cases(tokenize(src))): ex(f'md_sym_{n}',a[0],a[0],'md_default')
src=open(T+'list.rs').read()
i=src.index('fn symmetric_round_trip_list_with_spaces')
for n,a in enumerate(cases(tokenize(src[:i]))): ex(f'md_list_{n}',a[0],a[0],'(with_spaces_before_list_item md_default 0)')
j=src.index('fn symmetric_round_trip_list_without')
for n,a in enumerate(cases(tokenize(src[i:j]))): ex(f'md_tight_{n}',a[0],a[0],'(with_empty_line_before_list md_default false)')
ex('md_nl_0','line1 line1 line1\nline2 line2 line2 line2 line2','line1 line1 line1 line2 line2 line2 line2 line2','md_default')
for n,a in enumerate(cases(tokenize(open(T+'text_formatting.rs').read()))): ex(f'md_nl_{n+1}',a[0],a[1],'md_default')
# wrapping tests: the re-parsed document is one paragraph again
src=open(T+'line_wrapping_issues.rs').read()
import re
n=0
for m in re.finditer(r'let text = ("(?:[^"\\]|\\.)*");.*?with_width\((\d+)\)',src,re.S):
    t=tokenize(m.group(1))[0][1]; w=m.group(2)
    kind='is_code' if t.startswith('    ') else 'is_para'
    out.append(f'Example md_wrap_{n} : md_again (with_width md_default {w}) {cs(t)} {kind} = true.\nProof. vm_compute. reflexivity. Qed.\n'); n+=1
i=src.index('let problematic_texts'); j=src.index('];',i)
for k,v in tokenize(src[i:j]):
    if k=='str':
        for w in (10,15,20,25):
            out.append(f'Example md_wrap_{n} : md_again (with_width md_default {w}) {cs(v)} is_para = true.\nProof. vm_compute. reflexivity. Qed.\n'); n+=1
pats=["-","+","#","##","###",">","|","1.","2.","10.","```","---","___"]
for p in pats:
    t=f"a {p} b {p} c {p} d {p} e {p} f {p} g {p} h {p}"
    out.append(f'Example md_pat_{n} : md_again (with_width md_default 8) {cs(t)} is_para = true.\nProof. vm_compute. reflexivity. Qed.\n'); n+=1
t="text * more * words * here * and * there * end"
out.append(f'Example md_pat_{n} : md_again (with_width md_default 8) {cs(t)} is_para = true.\nProof. vm_compute. reflexivity. Qed.\n')
head='''(** The repository's own tests of the Markdown printer
    (/repo/src/printer/tests), evaluated on the model: GENERATED by
    tools/conformance_md.py.  They validate the models of the printer, of
    [pretty] and of the parser together; they are not proofs of properties. *)
From Coq Require Import String.
From Verif Require Import MdPrinter ParserBlock ConformanceParser.
Import ListNotations.
Open Scope list_scope.

(** parse with the default configuration, render, as in the tests *)
Definition md_render (c : md_config) (d : document) : option str :=
  render_markdown (@List.length char) (fun c => [c]) (fun _ => false) 1000 d c.
Definition md_round (c : md_config) (s : str) : option str :=
  match parse_markdown test_config s with Ok _ d => md_render c d | _ => None end.
Definition is_para (d : document) : bool := match d_blocks d with [BParagraph _] => true | _ => false end.
Definition is_code (d : document) : bool := match d_blocks d with [BCodeBlock _] => true | _ => false end.
Definition md_again (c : md_config) (s : str) (p : document -> bool) : bool :=
  match md_round c s with
  | Some t => match parse_markdown test_config t with Ok _ d => p d | _ => false end
  | None => false
  end.

'''
open('/verif/rocq/theories/ConformanceMd.v','w').write(head+'\n'.join(out))
print(len(out),'examples')
