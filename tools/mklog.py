#!/usr/bin/env python3
"""Merge mutant lists (seeded/m*.py) and harness output (seeded/o*.jsonl or /tmp/mut) into seeded/LOG.jsonl.
Claims use the property ids of properties.jsonl (CLAIM below overrides the lists' own wording)."""
import json,importlib.util,os,glob,sys
HERE=os.path.dirname(os.path.abspath(__file__)); S=os.path.join(HERE,'..','seeded')
CLAIM={}
for l in '''r01 C01 C04|r02 C01 C05|r03 C01 C05|r04 C03|r05 C08|r06 C08|r07 C14|r08 C14|r09 C15 C32|r10 C15|r11 C13|r12 C13|r13 C13|r14 C13|r15 C13 C29|r16 C55|r17 C08|r18 C09|r19 C06|r20 C08 C10|r21 C11|f01 C18|s01 C16|s02 C16|s03 C17|s04 C19|s05 C19|s06 C19|s07 C22|s08 C45|s09 C45|s10 C30|s11 C32|s12 C45|s13 C45|c01 C20|c02 C20|c03 C20 C22|c04 C20|c05 C18 C21|l01 C22|l02 C22|l03 C22 C23|l04 C31|l05 C33|l06 C24|l07 C24|l08 C24|l09 C27|l10 C24|l11 C23 C28|l12 C22|l13 C24|i01 C28|i02 C28|i03 C27|i04 C30|i05 C29|i06 C21|x01 C36|x02 C36|x03 C37|x04 C37|x05 C38|x06 C38|x07 C38|x08 C30|x09 C34|x10 C39|x11 C34|x12 C36|x13 C38 C39|x14 C34|p01 C40|p02 C41|p03 C41|p04 C41|p05 C40|p06 C40|p07 C40|p08 C06|d01 C48|d02 C49|d03 C49|d04 C50|d05 C51|d06 C51|d07 C49|d08 C26|d09 C48|d10 C49|d11 C50|t01 C11|t02 C11|t03 C11|t04 C12|q01 C53|q02 C52|q03 C52|q04 C07|q05 C53|q06 C53|q07 C06|q08 C01|q09 C53|k01 C55|k02 C32 C14|k03 C32|k04 C62|k05 C54|k06 C54|k07 C46|k08 C47|k09 C13|k10 C60|k11 C60|k12 C40|k13 C58|k14 C13|k15 C47|k16 C14 C63|k17 C29|k18 C60|k19 C47|k20 C41'''.split('|'):
    w=l.split(); CLAIM[w[0]]=w[1:]
TIGHT={}
tf=os.path.join(S,'tightened.json')
if os.path.exists(tf): TIGHT=json.load(open(tf))
out=[]
for f in sorted(glob.glob(os.path.join(S,'m*.py'))):
    sp=importlib.util.spec_from_file_location('x',f);M=importlib.util.module_from_spec(sp);sp.loader.exec_module(M)
    o=os.path.join(S,os.path.basename(f).replace('m','o',1).replace('.py','.jsonl'))
    res={}
    if os.path.exists(o):
        for l in open(o):
            d=json.loads(l);res[d['id']]=d
    for m in M.MUTS:
        r=res.get(m['id'])
        if not r: continue
        ids=(CLAIM.get(m['id']) if os.path.basename(f) in ('m1.py','m2.py','m3.py','m4.py') else None) or m.get('props') or []
        text=m['claim']
        if ids and text[:1]=='C' and text[1:3].isdigit(): text=text[4:]
        t=TIGHT.get(os.path.basename(f)[:-3]+':'+m['id']) or (TIGHT.get(m['id'],{}) if not (m['id'][0] in 'kql' and os.path.basename(f) in ('m9.py','m10.py')) else {})
        e=dict(id=m['id'],definition=m['definition'],
               edit=' ; '.join(f'{a}: `{b}` -> `{c}`' for a,b,c in m['edits']),
               claim=(' '.join(ids)+': '+text).strip(': '),
               theorems_failed=r.get('theorems',[]),
               failed_at=r.get('failed',[])[:6],examples_failed=r.get('examples',[])[:8],
               tightened=t.get('tightened',[]))
        if r.get('error'): e['outcome']=r['error'][:200]
        if t.get('note'): e['note']=t['note']
        out.append(e)
open(os.path.join(S,'LOG.jsonl'),'w').write(''.join(json.dumps(e)+'\n' for e in out))
print(len(out),'entries; survivors/errors:',[ (e['id'],e.get('outcome')) for e in out if not e['theorems_failed'] or e.get('outcome')])
for e in out:
    ids=e['claim'].split(':')[0].split()
    if e['theorems_failed'] and not any(t.startswith(i) for t in e['theorems_failed'] for i in ids): print('claim theorem not hit',e['id'],e['claim'],e['theorems_failed'][:5])
