#!/usr/bin/env python3
"""Apply seeded bugs to the model in a scratch copy, rebuild, and log which lemmas fail.
usage: seed.py mutants.json   (list of {file, definition, old, new, claim})"""
import sys,json,os,subprocess,shutil,re
R='/verif/rocq'; S='/tmp/scratch'
muts=json.load(open(sys.argv[1]))
if not os.path.exists(S): os.makedirs(S)
subprocess.run(['rsync','-a','--delete',R+'/',S+'/'],check=False) if shutil.which('rsync') else (shutil.rmtree(S),shutil.copytree(R,S))
subprocess.run('coq_makefile -f _CoqProject -o Makefile && make -j4',shell=True,cwd=S,stdout=subprocess.DEVNULL,stderr=subprocess.DEVNULL)
log=open('/verif/seeded/LOG.jsonl','a')
for m in muts:
    f=S+'/theories/'+m['file']; src=open(f).read()
    if src.count(m['old'])!=m.get('count',1): print('BAD PATTERN',m['definition'],src.count(m['old'])); continue
    open(f,'w').write(src.replace(m['old'],m['new']))
    p=subprocess.run('make -k -j4',shell=True,cwd=S,capture_output=True,text=True)
    out=p.stdout+p.stderr
    failed=[]
    for g in re.finditer(r'File "\./(?:theories/)?([^"]+)", line (\d+)[^\n]*\n(Error[^\n]*)',out):
        fn,ln=g.group(1),int(g.group(2))
        L=open(S+'/theories/'+os.path.basename(fn)).read().split('\n')[:ln]
        nm='?'
        for l in reversed(L):
            k=re.match(r'\s*(?:Lemma|Theorem|Example|Definition|Fixpoint)\s+(\w+)',l)
            if k: nm=k.group(1); break
        failed.append(os.path.basename(fn)+':'+nm)
    if m['file'] in [x.split(':')[0] for x in failed]: print('MODEL ITSELF FAILED (bad mutant)',m['definition'],failed,out[-300:]); 
    else:
        d=dict(definition=m['definition'],edit=m['old']+'  ==>  '+m['new'],claim=m['claim'],theorems_failed=failed,theorems_tightened=m.get('tightened',[]))
        print(('CAUGHT ' if failed else '**SURVIVED** ')+m['definition'],failed)
        log.write(json.dumps(d)+'\n'); log.flush()
    open(f,'w').write(src)
subprocess.run('make -j4',shell=True,cwd=S,stdout=subprocess.DEVNULL,stderr=subprocess.DEVNULL)
