#!/usr/bin/env python3
"""mutate.py spec.json [out.jsonl] -- applies each mutant of spec.json to a scratch copy of rocq/, rebuilds and reports what failed.
spec: list of {file, definition, old, new, claim}.  A failing Lemma/Theorem is replaced by Admitted in the scratch copy and the build goes on,
so that Print Assumptions tells which property theorems (Cnn_...) rest on a failed proof."""
import json, os, re, shutil, subprocess, sys, time
HERE = os.path.dirname(os.path.abspath(__file__)); SRC = os.environ.get('MUTSRC', os.path.join(HERE, '..', 'rocq')); W = os.environ.get('MUTDIR', '/tmp/mut')
JOBS = os.environ.get('MUTJOBS', '2'); TMO = os.environ.get('MUTTMO', '240')
def sh(c, t=None):
    p = subprocess.run(c, shell=True, capture_output=True, text=True, timeout=t); return p.stdout + p.stderr
def sync():
    os.makedirs(W, exist_ok=True)
    sh(f"rsync -a --delete {SRC}/ {W}/ 2>/dev/null || (rm -rf {W}/* && cp -a {SRC}/. {W}/)")
def enclosing(path, line):
    txt = open(path).read().split('\n')
    for i in range(line - 1, -1, -1):
        m = re.match(r'\s*(?:#\[[^\]]*\]\s*)?(?:Local |Global )?(Theorem|Lemma|Definition|Fixpoint|Corollary|Instance|Inductive|Record)\s+(\w+)', txt[i])
        if m: return m[1], m[2], i
    return None
def admit(path, i):
    txt = open(path).read().split('\n')
    j = i
    while j < len(txt) and not re.search(r'(?<!\w)(Qed|Defined)\.', txt[j]): j += 1
    if j == len(txt): return False
    blk = '\n'.join(txt[i:j + 1])
    # statement ends at 'Proof' or at the first '. ' before a tactic on the same line
    m = re.search(r'\bProof\b', blk)
    if not m: return False
    stmt = blk[:m.start()].rstrip()
    tail = blk[blk.rfind('Qed.') + 4:] if 'Qed.' in blk else ''
    txt[i:j + 1] = (stmt + ' Admitted.' + tail).split('\n')
    open(path, 'w').write('\n'.join(txt)); return True
man = json.load(open(os.environ.get('MUTMAN', os.path.join(HERE, '..', 'MANIFEST.json'))))
ALL = [t for c in man['claims'] for t in c['theorems']]
ORIG = {}
for f in os.listdir(SRC + '/theories'):
    if f.endswith('.v'):
        for m in re.finditer(r'^\s*(?:Theorem|Lemma)\s+(C\d\d\w*)', open(f'{SRC}/theories/{f}').read(), re.M): ORIG[m[1]] = f
def run(mu):
    sync()
    p = f"{W}/theories/{mu['file']}"; s = open(p).read()
    if s.count(mu['old']) < 1: return {'error': 'old text not found'}
    s = s.replace(mu['old'], mu['new'], 1) if not mu.get('all') else s.replace(mu['old'], mu['new'])
    open(p, 'w').write(s)
    failed = []; slow = []; t0 = time.time(); bad = set()
    for it in range(14):
        out = sh(f"cd {W} && make -k -j{JOBS} COQC='timeout {TMO} coqc' 2>&1")
        errs = re.findall(r'File "\./theories/(\w+\.v)", line (\d+), characters [^\n]*\n((?:.|\n)*?)(?=\nFile |\nmake|$)', out)
        errs = [(f, int(l)) for f, l, m in errs if 'Error' in m]
        seen = set(); todo = []
        for f, l in errs:
            if f not in seen and f not in bad: seen.add(f); todo.append((f, l))
        for f in re.findall(r'theories/(\w+)\.vo\] Error (?:124|137|143)', out):
            if f + '.v' not in bad: slow.append(f + '.v'); bad.add(f + '.v')
        if not todo: break
        for f, l in todo:
            e = enclosing(f"{W}/theories/{f}", l)
            if not e or e[0] not in ('Theorem', 'Lemma', 'Corollary') : bad.add(f); failed.append(f + ':' + (e[1] if e else '?')); continue
            failed.append(f[:-2] + '.' + e[1])
            if not admit(f"{W}/theories/{f}", e[2]): bad.add(f)
    res = {'failed_proofs': failed}
    if slow: res['timeouts'] = slow
    if bad: res['not_compiled'] = sorted(bad)
    direct = [x.split('.')[1] for x in failed if re.match(r'C\d\d', x.split('.')[-1])]
    dep = []
    if failed and not bad:
        reb = {f for f in set(ORIG.values()) if os.path.getmtime(f"{W}/theories/{f}o") > t0 - 1}
        lines = ["From Coq Require Import String.\n"] + [f"From Verif Require Import {f[:-2]}.\n" for f in sorted(reb)]
        for t in sorted(ORIG):
            if ORIG[t] in reb: lines.append(f'Check "@@{t}"%string.\nPrint Assumptions {t}.\n')
        open(f"{W}/Q.v", 'w').write(''.join(lines))
        o = sh(f"cd {W} && timeout 600 coqc -w none -Q theories Verif Q.v")
        for blk in o.split('"@@')[1:]:
            name = blk.split('"')[0]
            if 'Closed under' not in blk: dep.append(name)
    res['theorems_failed'] = sorted(set(direct) | set(dep)); res['secs'] = round(time.time() - t0)
    return res
if __name__ == '__main__':
    spec = json.load(open(sys.argv[1])); out = sys.argv[2] if len(sys.argv) > 2 else '/tmp/mut.out'
    for mu in spec:
        r = run(mu)
        with open(out, 'a') as f: f.write(json.dumps({**mu, 'result': r}) + '\n')
        print(mu['file'], mu['definition'], '|', r.get("error") or (len(r['theorems_failed']), r['theorems_failed'][:4], r.get('not_compiled')), r.get('secs'), flush=True)
