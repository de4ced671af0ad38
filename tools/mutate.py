#!/usr/bin/env python3
"""mutate.py SPEC.json : mutation testing in a scratch copy (under /tmp) of rocq/.

SPEC.json is a list of {"file","definition","old","new","breaks"}, optionally with "targets", the
property files to build (default: all).  For every entry the text edit
is applied to the copy, the build is run with -k, and one JSON line is appended to
seeded/LOG.jsonl with the lemma at which each failing file stops and the property files that no
longer build.  A mutant that still builds is reported as SURVIVED and logged with
outcome "survived"; one that the model itself rejects is not logged."""
import json, os, re, shutil, subprocess, sys
root = os.path.join(os.path.dirname(os.path.abspath(__file__)), '..')
tag = str(os.getpid())
src, dst = '/tmp/mutbase' + tag, '/tmp/mut' + tag
subprocess.run(['cp', '-a', os.path.join(root, 'rocq'), src], check=True)   # snapshot
spec = json.load(open(sys.argv[1]))
def fresh():
    shutil.rmtree(dst, ignore_errors=True)
    subprocess.run(['cp', '-a', src, dst], check=True)
fresh()
def make(targets=()):
    return subprocess.run('coq_makefile -f _CoqProject -o Makefile >/dev/null 2>&1; timeout 1200 make -k -j4 ' + ' '.join(t + 'o' for t in targets) + ' 2>&1',
                          shell=True, cwd=dst, stdout=subprocess.PIPE, text=True).stdout
out = make(sorted({t for m in spec for t in m['targets']}) if all(m.get('targets') for m in spec) else ())
if 'Error' in out:
    print(out[-3000:]); sys.exit('baseline does not build')
decl = re.compile(r'^\s*(?:Local |Global |#\[.*?\] )?(?:Theorem|Lemma|Corollary|Fact|Remark|Example|Definition|Fixpoint|Instance|Let)\s+([\w\']+)')
def enclosing(f, n):
    name = '?'
    for i, l in enumerate(open(os.path.join(dst, f))):
        if i + 1 > n: break
        m = decl.match(l)
        if m: name = m.group(1)
    return name
for m in spec:
    p = os.path.join(dst, m['file'])
    s = open(p).read()
    if s.count(m['old']) < 1:
        print('NOT FOUND', m['old'][:60]); continue
    k = m.get('nth', 0)
    pos = -1
    for _ in range(k + 1):
        pos = s.index(m['old'], pos + 1)
    open(p, 'w').write(s[:pos] + m['new'] + s[pos + len(m['old']):])
    targets = m.get('targets', [])
    out = make(targets)
    fails = [(f.lstrip('./'), int(n)) for f, n in re.findall(r'File "([^"]+)", line (\d+), characters[^\n]*\n(?:Error|In nested)', out)]
    failed = [f"{enclosing(f, n)} ({f})" for f, n in fails]
    files = [l.strip() for l in open(os.path.join(dst, '_CoqProject')) if l.strip().endswith('.v')]
    # property files that were not rebuilt after the edit although they depend on it
    dep = subprocess.run("coqdep -f _CoqProject 2>/dev/null", shell=True, cwd=dst,
                         stdout=subprocess.PIPE, text=True).stdout
    deps = {}
    for l in dep.splitlines():
        if ':' in l:
            a, b = l.split(':', 1)
            for t in a.split():
                if t.endswith('.vo'):
                    deps[t] = [x for x in b.split() if x.endswith('.vo')]
    def reaches(t, goal, seen):
        if t == goal: return True
        if t in seen: return False
        seen.add(t)
        return any(reaches(x, goal, seen) for x in deps.get(t, []))
    goal = m['file'] + 'o'
    unb = sorted({f for f in files if '/Props/P_' in f and (not targets or f in targets) and reaches(f + 'o', goal, set())
                  and (not os.path.exists(os.path.join(dst, f + 'o'))
                       or os.path.getmtime(os.path.join(dst, f + 'o')) < os.path.getmtime(p))})
    rec = {"file": m['file'], "definition": m['definition'],
           "edit": f"{m['old'].strip()}  ==>  {m['new'].strip()}",
           "breaks": m['breaks'], "failed": failed, "property_files_not_building": unb,
           "tightened": m.get('tightened', [])}
    ok = not failed
    compile_err = [f for f, n in fails if '/Model/' in f]
    print(('SURVIVED ' if ok else ('MODEL-ERROR ' if compile_err else 'killed   ')) + m['definition'],
          '|', rec['edit'][:90].replace('\n', ' '), '|', failed[:4], unb)
    if not compile_err:
        rec['outcome'] = 'survived' if ok else 'killed'
        with open(os.path.join(root, 'seeded', 'LOG.jsonl'), 'a') as g:
            g.write(json.dumps(rec) + '\n')
    fresh()
shutil.rmtree(dst, ignore_errors=True); shutil.rmtree(src, ignore_errors=True)
