#!/usr/bin/env python3
"""Print every /repo citation in the Coq files with the source text it points at,
and fail if one is outside its file."""
import glob, os, re, sys
here = os.path.dirname(os.path.abspath(__file__))
bad = 0
for f in sorted(glob.glob(os.path.join(here, '../rocq/theories/*.v'))):
    for n, l in enumerate(open(f), 1):
        for m in re.finditer(r'/repo/([a-z_0-9]+\.go):(\d+)(?:-(\d+))?', l):
            src = open('/repo/' + m[1]).read().split('\n')
            a = int(m[2]); b = int(m[3] or a)
            out = b > len(src) or a > b
            bad += out
            first, last = ('OUT OF RANGE', '') if out else (src[a-1].strip(), src[b-1].strip())
            print(f'{os.path.basename(f)}:{n} {m[0]}: {first[:60]} ... {last[:25]}')
sys.exit(1 if bad else 0)
