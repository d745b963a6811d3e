#!/usr/bin/env python3
"""Try wrong programs.  Usage: mutate.py BASE JOBS.json [workers]

BASE/rocq is a compiled scratch copy of /verif/rocq (outside /verif).  Every job
is {"id", "file", "old", "new", ...}: [old] (one occurrence) is replaced by [new]
in theories/file of a copy of BASE and everything that depends on it is rebuilt.
A proof that no longer goes through is replaced by an axiom, its name noted, and
the build goes on; so a theorem counts as failed when its own proof breaks or its
Print Assumptions mentions that axiom."""
import json, os, re, shutil, subprocess, sys, concurrent.futures as cf

BASE = sys.argv[1]
STMT = re.compile(r'^\s*(?:Local |Global |#\[[^\]]*\] )?(Lemma|Theorem|Example|Corollary|Fact|Remark|Instance|Definition|Fixpoint)\s+([A-Za-z0-9_\']+)', re.M)

def project(d):
    return [l.strip()[len('theories/'):-2] for l in open(f'{d}/rocq/_CoqProject') if l.strip().startswith('theories/')]

def deps(d):
    out = subprocess.run(['coqdep', '-Q', 'theories', 'Verif'] + [f'theories/{m}.v' for m in project(d)],
                         cwd=f'{d}/rocq', capture_output=True, text=True).stdout
    dep = {}
    for line in out.splitlines():
        m = re.match(r'theories/(\w+)\.vo .*?: (.*)', line)
        if m:
            dep[m.group(1)] = [x for x in re.findall(r'theories/(\w+)\.vo\b', m.group(2)) if x != m.group(1)]
    return dep

def using(d):
    f = f'{d}/using.json'
    if os.path.exists(f):
        return json.load(open(f))
    res = {}
    def one(m):
        src = open(f'{d}/rocq/theories/{m}.v').read()
        if not re.search(r'^Section', src, re.M):
            return
        os.makedirs(f'{d}/sug', exist_ok=True)
        open(f'{d}/sug/{m}.v', 'w').write('Set Suggest Proof Using.\n' + src)
        out = subprocess.run(['coqc', '-Q', 'rocq/theories', 'Verif', f'sug/{m}.v'], cwd=d, capture_output=True, text=True)
        txt = out.stdout + out.stderr
        for n, u in re.findall(r'The proof of (\S+)\s+should start with one of the following commands:\s+Proof using([^.]*)\.', txt):
            res[f'{m}.{n}'] = u.strip()
    with cf.ThreadPoolExecutor(4) as ex:
        list(ex.map(one, project(d)))
    json.dump(res, open(f, 'w'))
    return res

def run_job(job):
    d = f'/tmp/mut_{job["id"]}'
    shutil.rmtree(d, ignore_errors=True)
    os.makedirs(d)
    subprocess.run(['cp', '-a', f'{BASE}/rocq', f'{d}/rocq'], check=True)
    th = f'{d}/rocq/theories'
    f = f'{th}/{job["file"]}.v'
    src = open(f).read()
    edits = job.get('edits') or [[job['old'], job['new']]]
    for o, n in edits:
        if src.count(o) != 1:
            return {'id': job['id'], 'error': f'{src.count(o)} occurrences of {o!r}'}
        src = src.replace(o, n)
    open(f, 'w').write(src)
    open(f'{th}/Broken.v', 'w').write('Axiom broken_proof : forall P : Prop, P.\n')
    subprocess.run(['coqc', '-Q', '.', 'Verif', 'Broken.v'], cwd=th)
    dep, order = DEP, project(d)
    dirty, broken, failed_thms, ok_thms = {job['file']}, [], [], []
    # topological order = _CoqProject order is not guaranteed
    done, seq = set(), []
    def visit(m):
        if m in done: return
        done.add(m)
        for x in dep.get(m, []): visit(x)
        seq.append(m)
    for m in order: visit(m)
    for m in seq:
        if m not in dirty and not any(x in dirty for x in dep.get(m, [])):
            continue
        dirty.add(m)
        tries = 0
        while True:
            try:
                p = subprocess.run(['coqc', '-Q', '.', 'Verif', f'{m}.v'], cwd=th, capture_output=True, text=True, timeout=900)
                txt = p.stdout + p.stderr
                rc = p.returncode
                timeout = False
            except subprocess.TimeoutExpired as e:
                return {'id': job['id'], 'error': f'timeout in {m}', 'broken': broken}
            if rc == 0:
                if m.endswith('Props'):
                    names = re.findall(r'^Print Assumptions (\S+)\.', open(f'{th}/{m}.v').read(), re.M)
                    chunks = re.findall(r'Closed under the global context|Axioms:\n(?:.+\n?)+?(?=Closed under|Axioms:|\Z)', p.stdout)
                    if len(chunks) != len(names):
                        chunks = ['?'] * len(names)
                    for n, c in zip(names, chunks):
                        (failed_thms if 'broken_proof' in c else ok_thms).append(n)
                break
            e = re.search(r'line (\d+), characters', txt)
            if not e or tries > 60:
                return {'id': job['id'], 'error': f'{m}: {txt[:400]}', 'broken': broken}
            tries += 1
            lines = open(f'{th}/{m}.v').read()
            off = sum(len(x) + 1 for x in lines.split('\n')[:int(e.group(1)) - 1])
            eol = lines.find('\n', off)
            st = [x for x in STMT.finditer(lines, 0, eol if eol >= 0 else len(lines))]
            # the last statement that starts at or before the error and has a proof
            st = [x for x in st if x.start() <= off + 1] or st
            if not st:
                return {'id': job['id'], 'error': f'{m}: {txt[:600]}', 'broken': broken}
            x = st[-1]
            nxt = re.compile(r'(?:Qed|Defined)\.').search(lines, x.start())
            pr = re.compile(r'Proof(?: using[^.]*)?\.').search(lines, x.start())
            if x.group(1) in ('Definition', 'Fixpoint') or not nxt or not pr or pr.start() > nxt.start() or 'broken_proof' in lines[pr.start():nxt.end()]:
                return {'id': job['id'], 'error': f'{m} {x.group(2)}: {txt[:600]}', 'broken': broken}
            name = x.group(2)
            broken.append(f'{m}.{name}')
            u = USING.get(f'{m}.{name}')
            pu = f'Proof using {u}.' if u is not None else 'Proof.'
            # Require is not allowed inside a section: put it first
            new = lines[:pr.start()] + f'{pu} apply Verif.Broken.broken_proof. Qed.' + lines[nxt.end():]
            if 'Require Verif.Broken.' not in new:
                new = 'Require Verif.Broken. ' + new
            open(f'{th}/{m}.v', 'w').write(new)
    shutil.rmtree(d, ignore_errors=True)
    return {'id': job['id'], 'broken': broken, 'failed': sorted(failed_thms), 'still': sorted(ok_thms)}

if __name__ == '__main__':
    DEP = deps(BASE)
    USING = using(BASE)
    jobs = json.load(open(sys.argv[2]))
    if len(sys.argv) > 4:
        jobs = [j for j in jobs if j['id'] in sys.argv[4].split(',')]
    w = int(sys.argv[3]) if len(sys.argv) > 3 else 3
    with cf.ThreadPoolExecutor(w) as ex:
        for r in ex.map(run_job, jobs):
            print(json.dumps(r), flush=True)
