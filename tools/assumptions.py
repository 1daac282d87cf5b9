"""Prints, per property file, the axioms of every property theorem (needs a built tree)."""
import re,os,subprocess,glob,collections,sys
os.chdir('/verif/rocq')
ths=[]
for f in sorted(glob.glob('theories/Prop*.v')):
    s=open(f).read(); mod=os.path.basename(f)[:-2]
    for t in re.findall(r'^(?:Theorem|Lemma)\s+(C\d+_\w+)',s,re.M): ths.append((mod,t))
by=collections.defaultdict(list)
for mod in sorted(set(m for m,_ in ths)):
    l=[t for m,t in ths if m==mod]
    open('/tmp/as.v','w').write('From Verif Require %s.\n'%mod+''.join('Check tt.\nPrint Assumptions %s.%s.\n'%(mod,t) for t in l))
    o=subprocess.run(['coqc','-Q','theories','Verif','/tmp/as.v'],capture_output=True,text=True).stdout
    parts=re.split(r'^tt\n\s*: unit\n',o,flags=re.M)[1:]
    assert len(parts)==len(l),(mod,len(parts),len(l))
    for t,p in zip(l,parts):
        ax=() if 'Closed under' in p else tuple(sorted(set(re.findall(r'^([A-Za-z_][\w.]*)',p,re.M))-{'Axioms'}))
        by[(mod,ax)].append(t)
for (m,ax),v in by.items(): print(m,len(v),'closed' if not ax else ' '.join(a.split('.')[-1] for a in ax)); print('   ',' '.join(v))
if '--write' in sys.argv:
    d=open('/verif/DESIGN.md').read()
    if '## 5. ' in d: d=d[:d.index('## 5. ')]
    out=['## 5. Axioms per theorem (generated by tools/assumptions.py from Print Assumptions)\n','A = `ClassicalDedekindReals.sig_forall_dec`, B = `ClassicalDedekindReals.sig_not_dec`,\nC = `Classical_Prop.classic`, F = `FunctionalExtensionality.functional_extensionality_dep`; all four are in\nthe standard library.  "closed" means closed under the global context.\n']
    short={'sig_forall_dec':'A','sig_not_dec':'B','classic':'C','functional_extensionality_dep':'F'}
    out.append('| file | axioms | theorems |\n|---|---|---|')
    for (m,ax),v in by.items():
        out.append('| %s | %s | %s |'%(m,' '.join(sorted(short.get(a.split('.')[-1],a) for a in ax)) or 'closed',', '.join(v)))
    open('/verif/DESIGN.md','w').write(d+'\n'.join(out)+'\n')
