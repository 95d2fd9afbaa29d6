#!/usr/bin/env python3
"""Seed a bug into a scratch copy of the model and see which proofs break.

usage: mutate.py MUTANTS.json [name ...]
Each mutant: {"name", "file", "old", "new", "def", "edit", "claim", "expect": ["C17", ...]}.
The scratch copy lives in /tmp/mut (compiled files are reused).  One JSON line per
mutant is printed and appended to /tmp/mut/results.jsonl; copy what is worth
keeping to seeded/LOG.jsonl."""
import json, os, re, subprocess, sys, shutil, time
SRC = os.environ.get('MUTSRC', '/verif/rocq'); DST = os.environ.get('MUTDIR', '/tmp/mut') + '/rocq'
def sh(c, **k): return subprocess.run(c, shell=True, text=True, stdout=subprocess.PIPE, stderr=subprocess.STDOUT, **k)
def enclosing(f, line):
    name = '?'
    for i, l in enumerate(open(os.path.join(DST, f))):
        if i >= line: break
        m = re.match(r'\s*(?:Global |Local )?(?:Theorem|Lemma|Example|Corollary|Fact|Instance|Definition)\s+(\S+)', l)
        if m: name = m.group(1)
    return name
def main():
    muts = json.load(open(sys.argv[1])); only = set(sys.argv[2:])
    os.makedirs(DST, exist_ok=True)
    deps = {}
    for l in sh(f'cd {SRC} && coqdep -f _CoqProject 2>/dev/null').stdout.splitlines():
        m = re.match(r'theories/(\w+)\.vo.*?:(.*)', l)
        if m: deps[m.group(1)] = set(re.findall(r'theories/(\w+)\.vo\b', m.group(2)))
    for m in muts:
        if only and m['name'] not in only: continue
        shutil.rmtree(DST); sh(f'cp -a {SRC} {DST}')
        p = os.path.join(DST, 'theories', m['file']); s = open(p).read()
        if s.count(m['old']) < 1:
            print('NOT FOUND', m['name']); continue
        open(p, 'w').write(s.replace(m['old'], m['new'], m.get('count', 1)))
        t = time.time()
        r = sh(f'cd {DST} && make -k -j3 COQC="timeout 300 coqc"', timeout=4000)
        failed = []
        for x in re.finditer(r'File "\./(theories/\S+\.v)", line (\d+)[^\n]*\n(?:Error|.*?\nError)', r.stdout):
            failed.append(x.group(1)[9:-2] + '.' + enclosing(x.group(1), int(x.group(2))))
        for x in re.findall(r'theories/(\w+)\.vo\] (?:Error|Killed|Terminated)', r.stdout):
            if not any(f.startswith(x + '.') for f in failed): failed.append(x + '.(timeout)')
        bad = set(x.split('.')[0] for x in failed)
        while True:
            more = {f for f, d in deps.items() if f not in bad and d & bad}
            if not more: break
            bad |= more
        unbuilt = [f'theories/{f}.v' for f in sorted(bad)]
        props = []
        for f in unbuilt:
            if 'Prop_' in f:
                props += re.findall(r'^\s*Theorem\s+(C\d+_\w+)', open(os.path.join(DST, f)).read(), re.M)
        out = {'name': m['name'], 'definition': m['def'], 'edit': m['edit'], 'claim': m['claim'], 'failed_at': sorted(set(failed)),
               'unbuilt_files': [f[9:-2] for f in unbuilt], 'n_unbuilt_props': len(props), 'expect': m.get('expect', []), 'secs': int(time.time() - t),
               'survived': r.returncode == 0}
        print(json.dumps(out), flush=True)
        open(os.path.dirname(DST) + '/results.jsonl', 'a').write(json.dumps(out) + '\n')
main()
