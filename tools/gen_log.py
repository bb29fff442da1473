#!/usr/bin/env python3
"""seeded/LOG.jsonl from the mutation lists in seeded/ and the results of mutate.py.

usage: gen_log.py LIST RESULTS ...   (appends lines for mutations not yet logged)"""
import json, os, sys
root = os.path.dirname(os.path.dirname(os.path.abspath(__file__)))
log = root + '/seeded/LOG.jsonl'
done = {json.loads(l)['id'] for l in open(log)} if os.path.exists(log) else set()
args = sys.argv[1:]
with open(log, 'a') as fh:
    for lst, res in zip(args[::2], args[1::2]):
        muts = {m['id']: m for m in json.load(open(lst))}
        tight = {}
        if os.path.exists(lst[:-5] + '.tight'):
            tight = json.load(open(lst[:-5] + '.tight'))
        for l in open(res):
            r = json.loads(l)
            if r['id'] in done or r['id'] not in muts: continue
            m = muts[r['id']]
            done.add(r['id'])
            fh.write(json.dumps({
                'id': m['id'], 'definition': '%s.v: %s' % (m['file'], m['definition']),
                'edit': {'old': m['old'], 'new': m['new']}, 'claim': m['claim'],
                'lemmas_broken': r['broken'], 'theorems_failed': r['manifest'],
                'all_failures_searched': not r.get('stopped', False),
                'theorems_tightened': tight.get(m['id'], [])}) + '\n')
