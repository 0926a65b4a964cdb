"""Coq string literals"""
def cs(t):
    out=[];cur=''
    for c in t:
        if 32<=ord(c)<127 or c=='\n':
            cur+= '""' if c=='"' else c
        else:
            if cur: out.append(f'lit "{cur}"'); cur=''
            out.append(f'[{ord(c)}%N]')
    if cur: out.append(f'lit "{cur}"')
    # merge single chars
    m=[]
    for o in out:
        if o.startswith('[') and m and m[-1].startswith('['): m[-1]=m[-1][:-1]+'; '+o[1:]
        else: m.append(o)
    return '('+' ++ '.join(m)+')' if m else '[]'
