#!/usr/bin/env python3
"""Translate the repository's own parser unit tests (parse_markdown(..) followed
by assert_eq!(doc, ..)) into Coq Examples about the model, evaluated by
vm_compute.  They validate the model; they are not proofs of properties."""
import re,sys,glob,os
REPO='/repo/src/parser'
def tokenize(s):
    toks=[];i=0
    while i<len(s):
        c=s[i]
        if c.isspace(): i+=1; continue
        if s.startswith('//',i):
            j=s.find('\n',i); i=len(s) if j<0 else j; continue
        if c=='r' and s.startswith('r#"',i):
            j=s.index('"#',i+3); toks.append(('str',s[i+3:j])); i=j+2; continue
        if c=='"':
            j=i+1;out=''
            while s[j]!='"':
                if s[j]=='\\':
                    e=s[j+1]
                    if e=='\n':
                        j+=2
                        while s[j].isspace(): j+=1
                        continue
                    if e=='u':
                        k=s.index('}',j); out+=chr(int(s[j+3:k],16)); j=k+1; continue
                    out+={'n':'\n','t':'\t','r':'\r','\\':'\\','"':'"',"'":"'",'0':'\0'}[e]; j+=2
                else: out+=s[j]; j+=1
            toks.append(('str',out)); i=j+1; continue
        m=re.match(r"'(\\.|[^'])'",s[i:])
        if m: toks.append(('chr',m.group(1))); i+=m.end(); continue
        m=re.match(r'[A-Za-z_][A-Za-z0-9_]*(::[A-Za-z_][A-Za-z0-9_]*)*!?',s[i:])
        if m: toks.append(('id',m.group(0))); i+=m.end(); continue
        m=re.match(r'\d+',s[i:])
        if m: toks.append(('num',m.group(0))); i+=m.end(); continue
        toks.append(('p',c)); i+=1
    return toks
class Bad(Exception): pass
class P:
    def __init__(s,t): s.t=t; s.i=0
    def peek(s): return s.t[s.i] if s.i<len(s.t) else ('eof','')
    def next(s): x=s.peek(); s.i+=1; return x
    def isp(s,c): return s.peek()==('p',c)
    def eat(s,c):
        if not s.isp(c): raise Bad(f'expected {c} got {s.peek()}')
        s.i+=1
    def seq(s,close):
        out=[]
        while not s.isp(close):
            out.append(s.expr())
            if s.isp(','): s.i+=1
        s.eat(close); return out
    def expr(s):
        k,v=s.next()
        if k=='str': e=('str',v)
        elif k=='num': e=('num',v)
        elif k=='p' and v=='&': return s.expr()
        elif k=='id' and v=='vec!':
            s.eat('['); e=('vec',s.seq(']'))
        elif k=='id':
            name=v.split('::')[-1] if not v.startswith(('String::',)) else v
            full='::'.join([x for x in v.split('::') if x not in('ast','crate')][-2:])
            if s.isp('('):
                s.i+=1; e=('call',full,s.seq(')'))
            elif s.isp('{') and name[0].isupper():
                s.i+=1; f={}
                while not s.isp('}'):
                    fn=s.next()[1]
                    s.eat(':'); f[fn]=s.expr()
                    if s.isp(','): s.i+=1
                s.eat('}'); e=('struct',full,f)
            else: e=('path',full)
        else: raise Bad(f'unexpected {k} {v}')
        while s.isp('.'):
            s.i+=1; m=s.next()[1]
            if m not in('to_owned','to_string','into','clone'): raise Bad('method '+m)
            s.eat('('); s.eat(')')
        return e
def cs(t):
    if all(32<=ord(c)<127 and c!='"' for c in t): return f'(lit "{t}")' if t else '[]'
    return '['+'; '.join(str(ord(c)) for c in t)+']%N'
def coq(e):
    k=e[0]
    if k=='str': return cs(e[1])
    if k=='num': return e[1]+'%N'
    if k=='vec': return '['+'; '.join(map(coq,e[1]))+']'
    if k=='path':
        n=e[1]
        m={'None':'None','Block::Empty':'BEmpty','Block::ThematicBreak':'BThematicBreak','Inline::LineBreak':'ILineBreak','Inline::Empty':'IEmpty',
           'CodeBlockKind::Indented':'Indented','SetextHeading::Level1':'Level1','SetextHeading::Level2':'Level2',
           'ListBulletKind::Dash':'Dash','ListBulletKind::Star':'Star','ListBulletKind::Plus':'Plus',
           'TaskState::Complete':'Complete','TaskState::Incomplete':'Incomplete',
           'Alignment::None':'ANone','Alignment::Left':'ALeft','Alignment::Right':'ARight','Alignment::Center':'ACenter'}
        if n in m: return m[n]
        if n.startswith('GitHubAlertType::'): return n.split('::')[1]
        raise Bad('path '+n)
    if k=='call':
        n,a=e[1],[coq(x) for x in e[2]]
        if n=='String::new': return '[]'
        if n in('String::from','str::to_string'): return a[0]
        if n=='Some': return f'(Some {a[0]})'
        if n=='Box::new': return a[0]
        pre={'Block':'B','Inline':'I','HeadingKind':'','ListKind':'','GitHubAlertType':''}
        t,c=n.split('::')
        if t in pre: return f'({pre[t]}{c} {" ".join(a)})'
        raise Bad('call '+n)
    if k=='struct':
        n,f=e[1],{x:coq(y) for x,y in e[2].items()}
        g=lambda *ks: '('+{'Heading':'Heading','List':'MkList','ListItem':'ListItem','CodeBlock':'CodeBlock','LinkDefinition':'LinkDefinition','Table':'Table','FootnoteDefinition':'FootnoteDefinition','GitHubAlert':'GitHubAlert','Link':'Link','Image':'Image','LinkReference':'LinkReference','Document':'Document'}[n]+' '+' '.join(f[x] for x in ks)+')'
        if n=='CodeBlockKind::Fenced': return f'(Fenced {f["info"]})'
        if n=='ListOrderedKindOptions': return f['start']
        return {'Heading':lambda:g('kind','content'),'List':lambda:g('kind','items'),'ListItem':lambda:g('task','blocks'),'CodeBlock':lambda:g('kind','literal'),
          'LinkDefinition':lambda:g('label','destination','title'),'Table':lambda:g('rows','alignments'),'FootnoteDefinition':lambda:g('label','blocks'),
          'GitHubAlert':lambda:g('alert_type','blocks'),'Link':lambda:g('destination','title','children'),'Image':lambda:g('destination','title','alt'),
          'LinkReference':lambda:g('label','text'),'Document':lambda:g('blocks')}[n]()
    raise Bad(k)
def main(out):
    o=['(** Generated by tools/conformance.py from the parser unit tests of the',
       '    repository (src/parser/*/tests/*.rs): the model computes the documents',
       '    the tests expect.  Validation of the model, not proofs of properties. *)',
       'From Coq Require Import String.','From Verif Require Import ParserBlock.','Import ListNotations.','Open Scope list_scope.','',
       'Definition test_entities (s : str) : option str :=',
       '  if str_eqb s (lit "&amp;") then Some (lit "&") else if str_eqb s (lit "&lt;") then Some (lit "<")',
       '  else if str_eqb s (lit "&gt;") then Some (lit ">") else if str_eqb s (lit "&copy;") then Some [169%N]',
       '  else if str_eqb s (lit "&nbsp;") then Some [160%N] else None.',
       'Definition test_config := default_config test_entities (fun _ => false) (fun c => [c]).','']
    n=bad=0
    for fn in sorted(glob.glob(REPO+'/*/tests/*.rs')):
        src=open(fn).read()
        rel=os.path.relpath(fn,'/repo/src/parser')
        for fm in re.finditer(r'fn (\w+)\(\) \{\n(.*?)\n\}',src,re.S):
            body=fm.group(2); cfg='test_config'; idx=0
            if 'ElementBehavior::Map' in body or 'ElementBehavior::FlatMap' in body or 'custom_' in body and 'with_custom' in body: continue
            m=re.search(r'with_(block|inline)_(\w+)_behavior\(\s*(?:\w+::)*ElementBehavior::(Skip|Ignore)',body)
            for pm in re.finditer(r'let doc =\s*parse_markdown\(',body):
                try:
                    p=P(tokenize(body[pm.end():]))
                    # state expression: skip to the top-level comma
                    d=0; st=''
                    while not(d==0 and p.isp(',')):
                        k,v=p.next(); st+=v
                        if v in'([{': d+=1
                        if v in')]}': d-=1
                    p.eat(',')
                    inp=p.expr()
                    if p.isp(','): p.i+=1
                    p.eat(')'); p.eat('.'); p.next(); p.eat('('); p.eat(')'); p.eat(';')
                    if p.next()!=('id','assert_eq!'): continue
                    p.eat('('); p.expr(); p.eat(','); ex=p.expr()
                    c='test_config'
                    if 'with_config' in st:
                        if m: c=f'(with_{m.group(1)[0]}_{m.group(2)} {m.group(3)} test_config)'
                        else:
                            c='with_no_space test_config'; c='('+c+')'
                    idx+=1
                    o.append(f'(* {rel} {fm.group(1)} *)')
                    o.append(f'Example t_{rel.replace("/tests/","_").replace(".rs","")}_{fm.group(1)}_{idx} :\n  parse_markdown {c} {coq(inp)} =\n  Ok [] {coq(ex)}.\nProof. vm_compute. reflexivity. Qed.')
                    n+=1
                except (Bad,KeyError,IndexError,ValueError) as e:
                    bad+=1; print('skip',rel,fm.group(1),repr(e),file=sys.stderr)
    txt='\n'.join(o)+'\n'
    ws=set(re.findall(r'\(with_([bi])_(\w+) (Skip|Ignore) test_config\)',txt))
    defs=''
    fields=re.findall(r'^  (\w+) :', open('/verif/rocq/theories/ParserConfig.v').read().split('Record config')[1].split('}.')[0],re.M)
    def upd(name,field,arg,val):
        return f'Definition {name} {arg}(c : config) : config :=\n  Config '+' '.join(val if f==field else f'({f} c)' for f in fields)+'.\n'
    for k,nm in sorted({(a,b) for a,b,_ in ws}):
        defs+=upd(f'with_{k}_{nm}',f'{k}_{nm}','b ','b')
    defs+=upd('with_no_space','allow_no_space_in_headings','','true')
    txt=txt.replace('Definition test_config :=',defs+'Definition test_config :=')
    open(out,'w').write(txt)
    print(n,'examples',bad,'skipped')
if __name__=='__main__':
    main(sys.argv[1] if len(sys.argv)>1 else '/verif/rocq/theories/ConformanceParser.v')
