#!/usr/bin/env python3
"""Regenerates MANIFEST.json from manifest_src (id, status, theorems, note)."""
import json,sys
claims=[]
for line in open('manifest.src'):
    line=line.rstrip('\n')
    if not line or line.startswith('#'): continue
    pid,status,thms,note=[x.strip() for x in line.split('|',3)]
    claims.append({"property":pid,"status":status,"theorems":[t for t in thms.split() if t],"note":note})
json.dump({"claims":claims},open('MANIFEST.json','w'),indent=1)
