#!/usr/bin/env python3
"""Helper: edit properties.jsonl. usage: from prop import upd, note, save"""
import json,os
R=os.path.dirname(os.path.dirname(os.path.abspath(__file__)))
P=[json.loads(l) for l in open(R+'/properties.jsonl')]
N=json.load(open(R+'/tools/notes.json'))
def upd(i,**kw):
    for d in P:
        if d['id']==i: d.update(kw); return
    P.append(dict(id=i,**kw))
def note(i,st,t): N[i]=[st,t]
def save():
    open(R+'/properties.jsonl','w').write(''.join(json.dumps(d)+'\n' for d in P))
    json.dump(N,open(R+'/tools/notes.json','w'),indent=0)
