import json,re,glob,subprocess
m=json.load(open('/verif/MANIFEST.json'))
names=[t for c in m['claims'] for t in c['theorems']]
where={}
for f in glob.glob('/verif/rocq/theories/*.v'):
    for l in open(f):
        r=re.match(r'\s*(?:Theorem|Lemma|Corollary)\s+(\w+)',l)
        if r: where.setdefault(r.group(1),[]).append(f.split('/')[-1][:-2])
out="".join("From Verif Require %s.\n"%x for x in sorted({w for n in names for w in where[n][:1]}))
for n in names:
    out+='Goal True. idtac "@@ %s". Abort.\nPrint Assumptions %s.%s.\n'%(n,where[n][0],n)
    if len(where[n])>1: print("AMBIG",n,where[n])
open('/tmp/pa.v','w').write(out)
r=subprocess.run("cd /verif/rocq/theories && coqc -Q . Verif /tmp/pa.v",shell=True,capture_output=True,text=True)
print(r.stderr[:2000])
open('/tmp/pa.out','w').write(r.stdout)
print(r.stdout.count("@@"), r.stdout.count("Closed under the global context"))
