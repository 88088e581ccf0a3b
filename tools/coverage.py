#!/usr/bin/env python3
"""Which functions of /repo are cited by the model (M_*.v).  Citations look like name.py:12-34, 56."""
import re, glob, os, ast, collections
root='/repo'
cites=collections.defaultdict(set)
for f in glob.glob('/verif/rocq/theories/M_*.v')+['/verif/rocq/theories/PyBase.v']:
    s=open(f).read()
    cur=None
    for m in re.finditer(r'([\w/]+\.py)(?::|,? lines? | )?((?:\d+(?:-\d+)?(?:,? and |, | / )?)+)?',s):
        if m.group(2):
            for a,b in re.findall(r'(\d+)(?:-(\d+))?',m.group(2)):
                a=int(a); b=int(b or a)
                cites[os.path.basename(m.group(1))].update(range(a,b+1))
tot=cov=0
for p in sorted(glob.glob(root+'/neural_graph_composer/**/*.py',recursive=True)+[root+'/ngc_shared.py']):
    t=ast.parse(open(p).read()); c=cites[os.path.basename(p)]
    out=[]
    for n in ast.walk(t):
        if isinstance(n,(ast.FunctionDef,)):
            tot+=1
            body=range(n.lineno,n.end_lineno+1)
            if any(l in c for l in body): cov+=1
            else: out.append(f'{n.name}:{n.lineno}-{n.end_lineno}')
    if out: print(os.path.relpath(p,root),len(out)); print('   ',', '.join(out))
print(cov,'of',tot)
