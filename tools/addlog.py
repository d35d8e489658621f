#!/usr/bin/env python3
"""usage: addlog.py [results.jsonl].  Append /tmp/mut_results.jsonl to seeded/LOG.jsonl (field names of the task); flag mutants no property theorem notices."""
import json, sys
out=open('/verif/seeded/LOG.jsonl','a')
for l in open(sys.argv[1] if len(sys.argv) > 1 else '/tmp/mut_results.jsonl'):
    r=json.loads(l)
    if r.get('result'): print('NOT RUN',r['definition'],r['result']); continue
    if not r['failed']: print('NO THEOREM FAILED',r['definition'],r['edit'],r['failed_lemmas'],r['broken_files'])
    out.write(json.dumps({'definition':r['definition'],'edit':r['edit'],'claim':r['claim'],'theorems_failed':r['failed'],
       'lemmas_failed':r['failed_lemmas'],'files_not_compiling':r['broken_files'],'theorems_tightened':r['tightened'],**({'note':r['note']} if r.get('note') else {})})+'\n')
