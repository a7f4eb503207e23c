# usage: mutlog.py definition edit claim failed tightened
import sys,json
d=dict(zip(['definition','edit','claim_broken','theorems_failed','theorems_tightened'],sys.argv[1:6]))
for k in ('theorems_failed','theorems_tightened'): d[k]=[x for x in d[k].split(',') if x]
open('/verif/seeded/LOG.jsonl','a').write(json.dumps(d)+'\n')
