#!/usr/bin/env python3
"""Mutation testing: apply each edit of a JSON-lines file to a scratch copy of
rocq/, rebuild and append the outcome to seeded/LOG.jsonl.
Input lines: {"file","definition","old","new","edit","breaks"}.
Usage: mutate.py mutants.jsonl"""
import json, os, re, shutil, subprocess, sys
root = os.path.dirname(os.path.dirname(os.path.abspath(__file__)))
ws = '/tmp/mutws/rocq'

def sh(cmd, t=1500):
    return subprocess.run(cmd, shell=True, cwd=ws, capture_output=True, text=True, timeout=t)

def sync():
    os.makedirs(ws, exist_ok=True)
    subprocess.run(['rsync', '-a', '--delete', '--exclude', '*.vo*', '--exclude', '*.glob', '--exclude', '*.aux',
                    '--exclude', 'Makefile*', '--exclude', '.*', root + '/rocq/', ws + '/'], check=True)
    return sh('coq_makefile -f _CoqProject -o Makefile && make -j4')

def enclosing(path, line):
    name = '?'
    for i, l in enumerate(open(path), 1):
        m = re.match(r'\s*(?:Local\s+)?(?:Lemma|Theorem|Example|Corollary|Definition|Fixpoint|Remark|Fact)\s+([\w\']+)', l)
        if m and i <= line:
            name = m.group(1)
        if i > line:
            break
    return name

if subprocess.run(['which', 'rsync'], capture_output=True).returncode != 0:
    def sync():
        if not os.path.isdir(ws):
            shutil.copytree(root + '/rocq', ws)
        else:
            for d, _, fs in os.walk(root + '/rocq'):
                for f in fs:
                    if f.endswith('.v') or f == '_CoqProject':
                        a = os.path.join(d, f); b = os.path.join(ws, os.path.relpath(a, root + '/rocq'))
                        if not os.path.exists(b) or open(a).read() != open(b).read():
                            shutil.copy(a, b)
        return sh('coq_makefile -f _CoqProject -o Makefile && make -j4')

r = sync()
if r.returncode != 0:
    print('baseline does not build', r.stderr[-2000:]); sys.exit(1)
for line in open(sys.argv[1]):
    if not line.strip():
        continue
    m = json.loads(line)
    p = ws + '/theories/' + m['file']
    src = open(p).read()
    if src.count(m['old']) != 1:
        print('SKIP', m['definition'], 'occurrences:', src.count(m['old'])); continue
    open(p, 'w').write(src.replace(m['old'], m['new']))
    try:
        r = sh('ulimit -t 240; make -k -j4')
        text = r.stdout + r.stderr
        fails = []
        for mm in re.finditer(r'File "\./?(theories/[\w]+\.v)", line (\d+), characters [\d-]+:\nError', text):
            fails.append(enclosing(os.path.join(ws, mm.group(1)), int(mm.group(2))))
        unbuilt = []
        for f in sorted(os.listdir(ws + '/theories')):
            if f.startswith('Prop') and f.endswith('.v'):
                vo = ws + '/theories/' + f + 'o'
                if not os.path.exists(vo) or os.path.getmtime(vo) < os.path.getmtime(p):
                    dep = subprocess.run(['make', '-q', 'theories/' + f + 'o'], cwd=ws, capture_output=True).returncode
                    if dep != 0:
                        unbuilt.append(f)
        if unbuilt and not fails:
            fails = ['(a proof script ran out of time)']
        rec = {'definition': m['definition'], 'edit': m['edit'], 'claim': m['breaks'],
               'failed': fails, 'property_files_blocked': unbuilt, 'tightened': m.get('tightened', [])}
        print(('KILLED ' if fails else 'SURVIVED ') + m['definition'] + ': ' + m['edit'], fails, unbuilt)
        if not fails:
            rec['note'] = m.get('note', 'SURVIVED: see tightened or note')
        with open(root + '/seeded/LOG.jsonl', 'a') as f:
            f.write(json.dumps(rec) + '\n')
    finally:
        open(p, 'w').write(src)
        os.utime(p)
sh('make -j4')
