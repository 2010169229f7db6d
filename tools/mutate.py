#!/usr/bin/env python3
"""Run one wrong program against the theorems.

usage: mutate.py mutants.py [name ...]

Each mutant is (name, file, definition, old, new, claim, [property ids it should break]).
The theories are copied to a scratch directory, the edit is made, and the build is
repeated; every lemma whose proof no longer goes through is admitted in the scratch
copy, so that in the end Print Assumptions tells which property theorems depend on
a broken proof.  Prints one JSON line per mutant.  With ONLY set, only the theorems of
the properties named by the mutant are built and looked at.
"""
import sys, os, re, json, shutil, subprocess, runpy
SRC=os.environ.get('SRC','/verif/rocq'); JOBS=os.environ.get('JOBS','3')
HEAD=re.compile(r'^\s*(?:Local |Global |#\[.*\] )?(Lemma|Theorem|Example|Corollary|Fact|Remark|Instance)\s+(\S+)')

def sh(cmd, cwd, timeout=3600):
    return subprocess.run(cmd, shell=True, cwd=cwd, capture_output=True, text=True, timeout=timeout)

def admit(path, line, log):
    L=open(path).read().split('\n')
    i=min(line,len(L))-1
    while i>=0 and not HEAD.match(L[i]): i-=1
    if i<0: return None
    name=HEAD.match(L[i]).group(2).rstrip(':')
    txt='\n'.join(L); off=sum(len(x)+1 for x in L[:i])
    m=re.compile(r'\bProof( using[^.]*)?\.').search(txt, off)
    if not m: return None
    e=re.compile(r'\b(Qed|Defined|Admitted|Abort)\.').search(txt, m.end())
    if txt.count('\n',0,e.end())+1 < line: return None     # the error is past this proof
    if e.group(1)=='Admitted' : return None
    body=txt[m.start():e.end()]
    new=m.group(0)+' Admitted.'+'\n'*body.count('\n')
    txt=txt[:m.start()]+new+txt[e.end():]
    open(path,'w').write(txt); log.append((os.path.basename(path),name)); return name

def run(mut):
    name,file,defn,old,new,claim,props=mut
    d='/tmp/mut/'+name
    shutil.rmtree(d,ignore_errors=True); os.makedirs('/tmp/mut',exist_ok=True)
    shutil.copytree(SRC,d,copy_function=shutil.copy2,ignore=shutil.ignore_patterns('.*.aux'))
    p=f'{d}/theories/{file}'; s=open(p).read()
    if s.count(old)!=1: return dict(name=name,error=f'old text occurs {s.count(old)} times')
    open(p,'w').write(s.replace(old,new))
    sh('coq_makefile -f _CoqProject -o Makefile',d)
    log=[]; stuck=[]
    props_files=[x[:-2] for x in os.listdir(d+'/theories') if x.startswith('Properties') and x.endswith('.v')]
    if os.environ.get('ONLY'):
        rx=re.compile(r'^\s*Theorem\s+(%s)_' % '|'.join(p.lower() for p in props),re.M)
        props_files=[x for x in props_files if rx.search(open(f'{d}/theories/{x}.v').read())]
    goals=' '.join(f'theories/{x}.vo' for x in sorted(props_files)) if os.environ.get('ONLY') else ''
    for it in range(150):
        r=sh(f'make -k -j{JOBS} COQC="timeout 900 coqc" {goals}',d)
        errs=re.findall(r'File "(\./theories/\S+\.v)", line (\d+)[^\n]*\n(?:Warning)?',r.stderr)
        errs=[(f,int(n)) for f,n in re.findall(r'File "(\./theories/\S+?\.v)", line (\d+), characters [\d-]+:\nError',r.stderr)]
        if r.returncode==0: break
        if not errs:
            stuck.append(r.stderr[-800:]); break
        ok=False
        for f,n in errs:
            nm=admit(os.path.join(d,f),n,log)
            if nm: ok=True
            else: stuck.append(f'{f}:{n}')
        if not ok: break
    man=json.load(open('/verif/MANIFEST.json')); ths=[t for c in man['claims'] for t in c['theorems']]
    have=set(re.findall(r'^\s*Theorem\s+(\w+)','\n'.join(open(f'{d}/theories/{x}').read() for x in [y+'.v' for y in props_files]),flags=re.M))
    ths=[t for t in ths if t in have and (not os.environ.get('ONLY') or t[:3].upper() in props)]
    failed=None
    if not stuck:
        q='From Verif Require Import '+' '.join(sorted(props_files))+'.\n'
        for t in ths: q+=f'Print Assumptions {t}.\n'
        open(d+'/Q.v','w').write(q)
        r=sh('coqc -Q theories Verif Q.v',d)
        parts=re.split(r'^(?=Closed under|Axioms:)',r.stdout,flags=re.M)
        parts=[x for x in parts if x.startswith(('Closed','Axioms'))]
        if len(parts)==len(ths): failed=[t for t,x in zip(ths,parts) if x.startswith('Axioms')]
        else: stuck.append('assumptions: %d of %d %s'%(len(parts),len(ths),r.stderr[-300:]))
    ex=[n for f,n in log if 'nonvacuous' in n or n.endswith('_example')]
    res=dict(name=name,definition=f'{file}: {defn}',edit=f'{old.strip()}  ==>  {new.strip()}',claim=claim,props=props,
             failed=failed,broken_lemmas=[n for f,n in log if n not in ex],examples=ex,stuck=stuck)
    if failed is not None:
        res['caught']={p:[t for t in failed if t.startswith(p.lower()+'_')] for p in props}
    if not os.environ.get('KEEP'): shutil.rmtree(d,ignore_errors=True)
    return res

muts=runpy.run_path(sys.argv[1])['MUTANTS']
sel=sys.argv[2:]
for m in muts:
    if sel and m[0] not in sel: continue
    try: r=run(m)
    except Exception as ex: r=dict(name=m[0],error=repr(ex))
    print(json.dumps(r),flush=True)
