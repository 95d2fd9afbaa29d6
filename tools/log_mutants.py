#!/usr/bin/env python3
"""Append results of tools/mutate.py to seeded/LOG.jsonl.

usage: log_mutants.py results.out [tightened.json]
A mutant counts as caught only if a proof was rejected: builds stopped by a
timeout or killed for memory are logged as inconclusive."""
import json, os, sys
log = os.path.join(os.path.dirname(os.path.abspath(__file__)), '../seeded/LOG.jsonl')
tight = json.load(open(sys.argv[2])) if len(sys.argv) > 2 else {}
with open(log, 'a') as out:
    for l in open(sys.argv[1]):
        d = json.loads(l)
        real = [x for x in d['failed_at'] if '(' not in x]
        props = [x for x in real if x.split('.')[0].startswith(('Prop_', 'Ex_'))]
        r = {'name': d['name'], 'definition': d['definition'], 'edit': d['edit'], 'claim': d['claim'],
             'outcome': 'survived' if d['survived'] else 'caught' if real else 'inconclusive',
             'theorems_failed': props, 'lemmas_failed': [x for x in real if x not in props],
             'files_blocked': d['unbuilt_files'], 'theorems_tightened': tight.get(d['name'], [])}
        if r['outcome'] == 'inconclusive': r['note'] = 'no proof was rejected: the build ran out of time or was killed'
        out.write(json.dumps(r) + '\n')
