#!/usr/bin/env python3
"""Mutation driver.  usage: mutate.py batch.json   (list of {file, old, new, definition, edit, claim, [targets]});
targets: build only these Prop files (default: everything)
Copies /tmp/mut/base (a built snapshot of /verif/rocq) to /tmp/mut/w, applies one edit to the model, rebuilds; every lemma whose proof breaks is recorded and
admitted in the scratch copy so that all broken lemmas are found; the Prop*.v theorems that break, or that rest (textually,
transitively) on a broken lemma, are reported.  Appends one JSON line per edit to /verif/seeded/LOG.jsonl."""
import json,sys,re,subprocess,os,glob,shutil
W=os.environ.get('MUTW','/tmp/mut/w')
BASE=os.environ.get('MUTBASE','/tmp/mut/base')
HEAD=re.compile(r'^\s*(Lemma|Theorem|Example|Corollary|Fact|Remark|Definition|Fixpoint|Instance|Global Instance|Program Definition)\s+([A-Za-z0-9_\']+)')
def deps(root):
    """name -> set of mentioned names, over all files"""
    bodies={}
    for f in glob.glob(root+'/theories/*.v'):
        cur=None
        for l in open(f):
            m=HEAD.match(l)
            if m: cur=m.group(2); bodies.setdefault(cur,'')
            if cur: bodies[cur]+=l
    names=set(bodies)
    g={n:set(re.findall(r"[A-Za-z_][A-Za-z0-9_']*",b))&names-{n} for n,b in bodies.items()}
    return g
def dependents(g,bad):
    bad=set(bad); ch=True
    while ch:
        ch=False
        for n,d in g.items():
            if n not in bad and d&bad: bad.add(n); ch=True
    return bad
def run(m):
    subprocess.run('rm -rf '+W+'; cp -a '+BASE+' '+W,shell=True,check=True)
    p=W+'/theories/'+m['file']; s=open(p).read()
    if s.count(m['old'])<1: return None
    s=s.replace(m['old'],m['new'],1); open(p,'w').write(s)
    broken=[]; note=''
    for it in range(60):
        r=subprocess.run('ulimit -v 9000000; coq_makefile -f _CoqProject -o Makefile >/dev/null; timeout 900 make -k -j2 '+' '.join('theories/%s.vo'%t for t in m.get('targets',[]))+' 2>&1',shell=True,cwd=W,capture_output=True,text=True)
        if r.returncode==0: break
        errs=re.findall(r'File "\./theories/([^"]+)", line (\d+), characters [^\n]*\n(?:Error|Syntax)',r.stdout)
        if not errs: note='build stopped: '+r.stdout[-300:]; break
        stop=False
        for fn,ln in {e[0]:e[1] for e in errs}.items():
            ln=int(ln); L=open(W+'/theories/'+fn).read().split('\n')
            i=ln-1
            while i>=0 and not re.match(r'^\s*(Lemma|Theorem|Example|Corollary|Fact|Remark|Definition|Fixpoint)\s',L[i]): i-=1
            nm=HEAD.match(L[i]).group(2)
            # end of proof
            j=i
            while j<len(L) and not re.search(r'\b(Qed|Defined)\.',L[j]): j+=1
            txt='\n'.join(L[i:j+1])
            k=re.search(r'\bProof\.',txt)
            if not k or nm in broken: 
                note+=f' statement of {nm} no longer checks;'; stop=True; broken.append(nm) if nm not in broken else None; continue
            broken.append(nm)
            tail=txt[re.search(r'\b(Qed|Defined)\.(?!.*\b(Qed|Defined)\.)',txt,re.S).end():]
            new=txt[:k.start()]+'Proof. Admitted.'+tail
            L[i:j+1]=new.split('\n'); open(W+'/theories/'+fn,'w').write('\n'.join(L))
        if stop: break
    g=deps(BASE)
    thms=sorted(n for n in dependents(g,broken) if re.match(r'C\d+_',n) and not n.endswith('nonvacuous'))
    direct=[b for b in broken]
    return direct,thms,note
if __name__=='__main__':
    for m in json.load(open(sys.argv[1])):
        r=run(m)
        if r is None: print('EDIT NOT APPLICABLE',m['definition'],m['edit'],flush=True); continue
        direct,thms,note=r
        # only theorems whose proof text depends on broken lemma
        rec={'definition':m['definition'],'file':m['file'],'edit':m['edit'],'claim':m['claim'],'theorems_failed':thms,'broken_lemmas':direct,'theorems_tightened':m.get('tightened',[])}
        if note: rec['note']=note.strip()
        print(json.dumps(rec),flush=True)
        open('/verif/seeded/LOG.jsonl','a').write(json.dumps(rec)+'\n')
