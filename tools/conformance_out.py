#!/usr/bin/env python3
"""Translate the repository's own HTML and LaTeX printer tests into Coq Examples
about the model, evaluated by vm_compute."""
import sys,re,glob
sys.path.insert(0,'/verif/tools')
from conformance import tokenize,P,Bad,coq
from conformance_md_lib import cs
import conformance
conformance.cs=cs
def prep(s):
    # r"..." -> "..." with backslashes doubled
    s=re.sub(r'(?<![A-Za-z0-9_])r"([^"]*)"',lambda m:'"'+m.group(1).replace('\\','\\\\')+'"',s)
    s=re.sub(r'(?<![A-Za-z0-9_])r#"(.*?)"#',lambda m:'"'+m.group(1).replace('\\','\\\\').replace('"','\\"')+'"',s,flags=re.S)
    return s
out=['(** The repository\'s own tests of the HTML and LaTeX printers',
 '    (/repo/src/html_printer/tests, /repo/src/latex_printer/tests and util.rs),',
 '    evaluated on the model: GENERATED by tools/conformance_out.py.  They validate',
 '    the model; they are not proofs of properties. *)',
 'From Coq Require Import String.','From Verif Require Import HtmlPrinter LatexPrinter ParserBlock ConformanceParser.',
 'Import ListNotations.','Open Scope list_scope.','',
 'Fixpoint starts (p s : str) : bool := match p, s with [], _ => true | a :: p, b :: s => N.eqb a b && starts p s | _, _ => false end.',
 '(** Rust: [str::contains], number of [str::matches] (non-overlapping) *)',
 'Fixpoint contains (s p : str) : bool := starts p s || match s with [] => false | _ :: s => contains s p end.',
 'Fixpoint matches (n : nat) (s p : str) : nat :=',
 '  match n with 0 => 0 | S n => if starts p s then S (matches n (skipn (List.length p) s) p) else match s with [] => 0 | _ :: s => matches n s p end end.',
 'Definition latex (c : latex_config) (d : document) : str := match render_latex (@List.length char) d c with Some s => s | None => lit "panic" end.',
 'Definition html_round (s : str) : option str :=',
 '  match parse_markdown test_config s with Ok _ d => render_html (@List.length char) d (HtmlConfig 80 []) | _ => None end.','']
n=0;skip=[]
def cases(toks):
    res=[];i=0
    while i<len(toks):
        if toks[i]==('id','case') and toks[i+1]==('p','('):
            j=i+2;a=[]
            while toks[j]!=('p',')'):
                if toks[j][0]=='str': a.append(toks[j][1])
                j+=1
            res.append(a); i=j
        i+=1
    return res
for k,a in enumerate(cases(tokenize(open('/repo/src/html_printer/tests/mod.rs').read()))):
    out.append(f'Example html_{k} : html_round {cs(a[0])} =\n  Some {cs(a[1])}.\nProof. vm_compute. reflexivity. Qed.'); n+=1
u=prep(open('/repo/src/latex_printer/util.rs').read())
for k,(a,b) in enumerate(re.findall(r'assert_eq!\(escape_latex\(("(?:[^"\\]|\\.)*")\), ("(?:[^"\\]|\\.)*")\);',u)):
    x=tokenize(a)[0][1];y=tokenize(b)[0][1]
    out.append(f'Example esc_{k} : escape_latex {cs(x)} = {cs(y)}.\nProof. vm_compute. reflexivity. Qed.'); n+=1
def cfg(e):
    w='80';t='Tabular';c='Verbatim'
    e=re.sub(r'\s','',e)
    if not e.startswith('Config::default()'): raise Bad('config '+e)
    for f,v in re.findall(r'\.with_(\w+)\(([^)]*)\)',e):
        v=v.split('::')[-1]
        if f=='width': w=v
        elif f=='table_style': t=v
        elif f=='code_block_style': c=v
        else: raise Bad(f)
    if not w.isdigit(): raise Bad('width '+w)
    return f'(LatexConfig {w} {t} {c})'
for fn in sorted(glob.glob('/repo/src/latex_printer/tests/*.rs')):
    src=prep(open(fn).read()); rel=fn.split('/')[-1][:-3]
    for fm in re.finditer(r'fn (\w+)\(\) \{\n(.*?)\n\}\n',src,re.S):
        name,body=fm.groups(); docs={};cfgs={};res={};k=0
        pos=0; ok=True
        # statements in order of appearance
        for m in re.finditer(r'let (\w+) = (?=Document)|let (\w+) = (Config::default\(\)[^;]*);|let (\w+) = render_latex\(&(\w+), ([^;]*)\);|assert!\((!?)(\w+)\s*\.contains\(\s*("(?:[^"\\]|\\.)*")\s*\)\s*,?\s*\);|assert_eq!\((\w+)\.trim\(\), ("(?:[^"\\]|\\.)*")\);|let (\w+) = (\w+)\.matches\(("(?:[^"\\]|\\.)*")\)\.count\(\);|assert_eq!\((\w+), (\d+)\);|let (\w+) = ("(?:[^"\\]|\\.)*")(?:\.repeat\((\d+)\))?;',body):
            g=m.groups()
            try:
                if g[0]:
                    p=P(tokenize(body[m.end():]));
                    docs[g[0]]=coq(p.expr())
                    k+=1; out.append(f'Definition d_{rel}_{name}_{g[0]} : document :=\n  {docs[g[0]]}.')
                    docs[g[0]]=f'd_{rel}_{name}_{g[0]}'
                elif g[1]: cfgs[g[1]]=cfg(g[2])
                elif g[3]:
                    c=g[5].strip(); res[g[3]]=f'latex {cfgs[c] if c in cfgs else cfg(c)} {docs[g[4]]}'
                elif g[7]:
                    s=tokenize(g[8])[0][1]; k+=1
                    out.append(f'Example l_{rel}_{name}_{k} : contains ({res[g[7]]}) {cs(s)} = {"false" if g[6] else "true"}.\nProof. vm_compute. reflexivity. Qed.'); n+=1
                elif g[9]:
                    s=tokenize(g[10])[0][1]; k+=1
                    out.append(f'Example l_{rel}_{name}_{k} : trim ({res[g[9]]}) = {cs(s)}.\nProof. vm_compute. reflexivity. Qed.'); n+=1
                elif g[11]: res[g[11]]=f'matches 100000 ({res[g[12]]}) {cs(tokenize(g[13])[0][1])}'
                elif g[14]:
                    k+=1; out.append(f'Example l_{rel}_{name}_{k} : {res[g[14]]} = {g[15]}.\nProof. vm_compute. reflexivity. Qed.'); n+=1
            except (Bad,KeyError,IndexError,ValueError) as e:
                skip.append((rel,name,repr(e)[:80]))
open('/verif/rocq/theories/ConformanceOut.v','w').write('\n'.join(out)+'\n')
print(n,'examples'); [print('skip',*x,file=sys.stderr) for x in skip]
