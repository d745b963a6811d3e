#!/usr/bin/env python3
"""Generate small edits of the model definitions and report those that nothing
notices.  Usage: automutate.py BASE OUT.jsonl WORKERS FILE...

BASE/rocq is a compiled scratch copy of /verif/rocq.  Each edit is one operator,
constant, branch or update changed in one definition; everything that depends on
the file is rebuilt until the first proof breaks.  OUT gets one line per edit:
"invalid" (the definition no longer type-checks), "killed" (with the first broken
proof) or "survived"."""
import sys, re, os, json, subprocess, shutil, hashlib, concurrent.futures as cf
BASE, OUT, W = sys.argv[1], sys.argv[2], int(sys.argv[3])
FILES = sys.argv[4:]
OPS = [
 (r'<\?', '<=?'), (r'<=\?', '<?'), (r'(?<![<])=\?', '<?'), (r'(?<=\s)\+(?=\s)', '-'), (r'(?<=\s)-(?=\s)', '+'),
 (r'&&', '||'), (r'\|\|', '&&'), (r'\btrue\b', 'false'), (r'\bfalse\b', 'true'),
 (r'\bif (?=\()', 'if negb '), (r'\bif (?=[a-zA-Z_])', 'if negb '),
 (r'(?<![\w.\'])(\d+)(?![\w])', lambda m: str(int(m.group(1)) + 1)),
 (r'(?<![\w.\'])([1-9]\d*)(?![\w])', lambda m: str(int(m.group(1)) - 1)),
 (r'\bS ([a-z]\w*)\b', lambda m: m.group(1)), (r'\bNone\b(?!\s*=>)', None), (r'\bSOk\b', 'SNo'),
 (r'\bN\.shiftr\b', 'N.shiftl'), (r'\bN\.lor\b', 'N.land'), (r'\bN\.land\b', 'N.lor'), (r'\bmin\b', 'max'), (r'\bmax\b', 'min'),
 (r'\bfirstn\b', 'skipn'), (r'\bskipn\b', 'firstn'), (r'\b(\w+) \+\+ (\w+)\b', lambda m: f'{m.group(2)} ++ {m.group(1)}'),
 (r'\bnegb ', ''), (r'\bfst\b', 'snd'),
]
def strip_comments(s):
    out, d, i = [], 0, 0
    while i < len(s):
        if s.startswith('(*', i): d += 1; out.append('  '); i += 2; continue
        if s.startswith('*)', i) and d: d -= 1; out.append('  '); i += 2; continue
        out.append(s[i] if d == 0 or s[i] == '\n' else ' '); i += 1
    return ''.join(out)
DEF = re.compile(r'^[ \t]*(?:Definition|Fixpoint|Inductive|with)\s+([A-Za-z0-9_\']+)', re.M)
def sentences(s):
    """(name, start, end) of definitions without proofs"""
    c = strip_comments(s)
    for m in DEF.finditer(c):
        e = re.compile(r'\.(?=\s)').search(c, m.end())
        if e: yield m.group(1), m.end(), e.start(), c
def gen(f):
    s = open(f'{BASE}/rocq/theories/{f}.v').read()
    seen = set()
    for name, a, b, c in sentences(s):
        body = c[a:b]
        if ':=' not in body: continue
        st = body.index(':=')
        def emit(i, j, new, why):
            t = s[:a+i] + new + s[a+j:]
            h = hashlib.md5(t.encode()).hexdigest()
            if t != s and h not in seen:
                seen.add(h); return [(f, name, why, s[a+i-25:a+i] + '[[' + s[a+i:a+j] + ' => ' + new + ']]' + s[a+j:a+j+25], t)]
            return []
        for pat, rep in OPS:
            if rep is None or rep == 'SNo': continue
            for m in re.finditer(pat, body):
                if m.start() < st: continue
                new = rep(m) if callable(rep) else rep
                yield from emit(m.start(), m.end(), new, pat)
        # drop an update: "let! x := ... in" or "do x <- ...;" or "let x := ... in" on one line
        for m in re.finditer(r'^[ \t]*(?:let!? .*? := .* in|do .*? <- .*;)[ \t]*$', body, re.M):
            if m.start() < st: continue
            yield from emit(m.start(), m.end(), '', 'drop line')
        # swap the branches of match cases / arguments: f a b -> f b a
        for m in re.finditer(r'\b([a-z_]\w*) ([a-z]\w*) ([a-z]\w*)\b', body):
            if m.start() < st or m.group(2) == m.group(3): continue
            if m.group(1) in ('let','in','if','then','else','match','with','fun','end','as','do','forall','exists'): continue
            if m.group(2) in ('in','then','else','with','end') or m.group(3) in ('in','then','else','with','end'): continue
            yield from emit(m.start(), m.end(), f'{m.group(1)} {m.group(3)} {m.group(2)}', 'swap args')
def deps():
    mods = [l.strip()[9:-2] for l in open(f'{BASE}/rocq/_CoqProject') if l.strip().startswith('theories/')]
    out = subprocess.run(['coqdep', '-Q', 'theories', 'Verif'] + [f'theories/{m}.v' for m in mods], cwd=f'{BASE}/rocq', capture_output=True, text=True).stdout
    dep = {}
    for line in out.splitlines():
        m = re.match(r'theories/(\w+)\.vo .*?: (.*)', line)
        if m: dep[m.group(1)] = [x for x in re.findall(r'theories/(\w+)\.vo\b', m.group(2)) if x != m.group(1)]
    done, seq = set(), []
    def visit(m):
        if m in done: return
        done.add(m)
        for x in dep.get(m, []): visit(x)
        seq.append(m)
    for m in mods: visit(m)
    return dep, seq
DEP, SEQ = deps()
def run(args):
    k, (f, name, why, ctx, t) = args
    d = f'/tmp/auto/w_{os.getpid()}_{k}'
    shutil.rmtree(d, ignore_errors=True)
    os.makedirs(d)
    subprocess.run(['cp', '-al', f'{BASE}/rocq/theories', f'{d}/theories'], check=True)
    th = f'{d}/theories'
    def fresh(m):
        for e in ('.vo', '.vok', '.vos', '.glob'):
            try: os.unlink(f'{th}/{m}{e}')
            except FileNotFoundError: pass
        try: os.unlink(f'{th}/.{m}.aux')
        except FileNotFoundError: pass
    os.unlink(f'{th}/{f}.v'); open(f'{th}/{f}.v', 'w').write(t)
    rec = {'file': f, 'definition': name, 'op': why, 'edit': ctx}
    dirty = set()
    res = 'survived'
    try:
        for m in SEQ:
            if m != f and not any(x in dirty for x in DEP.get(m, [])): continue
            dirty.add(m); fresh(m)
            try:
                p = subprocess.run(['coqc', '-noglob', '-Q', '.', 'Verif', f'{m}.v'], cwd=th, capture_output=True, text=True, timeout=400)
            except subprocess.TimeoutExpired:
                res = 'killed'; rec['by'] = f'{m}: timeout'; break
            if p.returncode:
                e = re.search(r'line (\d+)', p.stderr)
                ln = int(e.group(1)) if e else 0
                src = open(f'{th}/{m}.v').read().split('\n')
                nm = ''
                for l in src[:ln][::-1]:
                    q = re.match(r'\s*(?:Local )?(Lemma|Theorem|Example|Corollary|Definition|Fixpoint|Inductive|Instance|Record|Program Fixpoint)\s+([A-Za-z0-9_\']+)', l)
                    if q: nm = q.group(1) + ' ' + q.group(2); break
                isdef = nm.split(' ')[0] in ('Definition', 'Fixpoint', 'Inductive', 'Record')
                res = 'invalid' if (isdef and not ('Qed' in src[ln-1])) else 'killed'
                rec['by'] = f'{m}: {nm}'
                rec['err'] = p.stderr[-200:] if isdef else ''
                break
    finally:
        shutil.rmtree(d, ignore_errors=True)
    rec['result'] = res
    return rec
done = set()
if os.path.exists(OUT):
    for l in open(OUT):
        r = json.loads(l); done.add((r['file'], r['definition'], r['op'], r['edit']))
jobs = []
for f in FILES:
    jobs += [j for j in gen(f) if (j[0], j[1], j[2], j[3]) not in done]
if os.environ.get('SKIP'): jobs = [j for j in jobs if not re.search(os.environ['SKIP'], j[1])]
if os.environ.get('SHUFFLE'):
    import random
    random.Random(int(os.environ['SHUFFLE'])).shuffle(jobs)
print(len(jobs), 'edits', file=sys.stderr)
if os.environ.get('COUNT'): sys.exit()
with open(OUT, 'a') as out, cf.ThreadPoolExecutor(W) as ex:
    for r in ex.map(run, enumerate(jobs)):
        out.write(json.dumps(r) + '\n'); out.flush()
