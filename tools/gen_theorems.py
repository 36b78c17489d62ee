#!/usr/bin/env python3
"""Generate theories/Props<X>.v from theories/Final<X>.v.

Every 'Lemma Cnn_..._proof <binders> : <statement>.' of a Final file becomes a
'Theorem Cnn_...' with the same statement, closed by 'exact (@..._proof ...)', followed
by Print Assumptions.  Comments standing directly before such a lemma, and
'Example Cnn_...' items with their proofs, are copied."""
import re,sys,glob,os
root=os.path.join(os.path.dirname(os.path.abspath(__file__)),'..','rocq','theories')
def strip_comment_aware_items(s):
    items=[];i=0;n=len(s)
    while i<n:
        while i<n and s[i].isspace(): i+=1
        if i>=n: break
        if s.startswith('(*',i):
            d=0;j=i
            while True:
                if s.startswith('(*',j): d+=1;j+=2
                elif s.startswith('*)',j):
                    d-=1;j+=2
                    if d==0: break
                else: j+=1
            items.append(('comment',s[i:j],i,j)); i=j
        else:
            j=i;d=0
            while True:
                if s.startswith('(*',j): d+=1;j+=2;continue
                if s.startswith('*)',j): d-=1;j+=2;continue
                if d==0 and s[j]=='.' and (j+1==n or s[j+1].isspace()): break
                j+=1
            items.append(('sent',s[i:j+1],i,j+1)); i=j+1
    return items
for f in sorted(glob.glob(os.path.join(root,'Final*.v'))):
    base=os.path.basename(f)[5:-2]
    s=S=open(f).read()
    items=strip_comment_aware_items(s)
    out=['(** Property theorems (generated by tools/gen_theorems.py from Final%s.v: same\n    statements, each closed by the lemma proved there). *)\nFrom Verif Require Import Final%s.\n'%(base,base)]
    k=0;pend=None
    while k<len(items):
        t,x,st,en=items[k]
        if t=='comment': pend=x; k+=1; continue
        m=re.match(r'Lemma\s+(C\d\d\w*)_proof\b',x)
        m2=re.match(r'Example\s+(C\d\d\w*)\b',x)
        if m:
            name=m.group(1)
            if pend: out.append(pend)
            out.append(re.sub(r'Lemma\s+C\d\d\w*_proof\b','Theorem '+name,x,1))
            # binders -> plain application by name
            out.append('Proof. exact %s_proof. Qed.'%(name) if re.match(r'Lemma\s+\w+\s*:',x) else 'Proof. apply %s_proof. Qed.'%name)
            out.append('Print Assumptions %s.\n'%name)
        elif m2:
            if pend: out.append(pend)
            while True:
                k+=1
                t,y,_,en=items[k]
                if t=='sent' and (y.strip() in('Qed.','Defined.')): break
            out.append(S[st:en])
            out.append('')
        pend=None
        k+=1
    open(os.path.join(root,'Props%s.v'%base),'w').write('\n'.join(out))
