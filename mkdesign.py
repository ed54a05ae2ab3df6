#!/usr/bin/env python3
"""Writes the theorem index (section 6) of DESIGN.md from manifest.src."""
import re,glob,os
here=os.path.dirname(os.path.abspath(__file__))
where={}
for f in sorted(glob.glob(here+'/rocq/theories/*.v')):
    for m in re.finditer(r'^(?:Theorem|Lemma|Example|Corollary) (\w+)',open(f).read(),re.M):
        where.setdefault(m.group(1),os.path.basename(f))
rows=[]
for l in open(here+'/manifest.src'):
    l=l.strip()
    if not l or l.startswith('#'): continue
    i,st,th,note=[x.strip() for x in l.split('|',3)]
    rows.append('| %s | %s | %s |'%(i,st,', '.join('`%s` (%s)'%(t,where[t][:-2]) for t in th.split())))
p=here+'/DESIGN.md'; s=open(p).read()
a=s.index('<!-- index -->'); 
s=s[:a]+'<!-- index -->\n\n| id | status | theorems (file) |\n|---|---|---|\n'+'\n'.join(rows)+'\n'
open(p,'w').write(s)
