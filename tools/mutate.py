#!/usr/bin/env python3
"""Try the theorems against wrong models.

usage: mutate.py [-j N] prepare
       mutate.py [-j N] run MUTATIONS.json [id ...]

Works on a scratch copy of rocq/ (default /tmp/mut, never /verif).  A mutation
is one textual edit of a definition.  Every file that depends on the edited one
is compiled again; a proof that no longer goes through is replaced by Admitted
in the scratch copy and noted, so that all broken proofs are found and not just
the first.  A manifest theorem counts as failed when its own proof breaks or
when a lemma its proof refers to (by the .glob files of the unedited build)
does.  One JSON line per mutation is printed.  With MUT_STOP=1 a run ends as
soon as a manifest theorem of a property named in the claim (C01, ...) has
failed; "stopped" then says so.
"""
import json, os, re, shutil, subprocess, sys, threading, concurrent.futures as cf

SRC = '/verif/rocq'
ROOT = os.environ.get('MUT', '/tmp/mut')
BASE = ROOT + '/base'
WORK = ROOT + '/work'
JOBS = 4
TMO = int(os.environ.get('MUT_TIMEOUT', '240'))

START = re.compile(r'^[ \t]*(?:Local |Global |#\[[^\]]*\]\s*)?(Theorem|Lemma|Corollary|Example|Fact|Remark|Instance)\s+([A-Za-z0-9_\']+)', re.M)
END = re.compile(r'\b(Qed|Defined|Admitted)\.')

def files(d):
    return [l.strip()[len('theories/'):-2] for l in open(d + '/_CoqProject') if l.strip().endswith('.v')]

def deps(d):
    out = subprocess.run(['coqdep', '-Q', 'theories', 'Verif'] + ['theories/%s.v' % f for f in files(d)],
                         cwd=d, capture_output=True, text=True).stdout
    r = {}
    for line in out.splitlines():
        m = re.match(r'theories/(\w+)\.vo[^:]*: (.*)', line)
        if m:
            r[m.group(1)] = {x for x in re.findall(r'theories/(\w+)\.vo\b', m.group(2)) if x != m.group(1)}
    return r

def lemmas(text):
    """[(start, proofstart, end, name, kind)] by character offset"""
    res = []
    for m in START.finditer(text):
        e = END.search(text, m.end())
        if not e: continue
        res.append((m.start(), m.end(), e.end(), m.group(2), m.group(1)))
    return res

def coqc(d, f, extra=()):
    cmd = 'ulimit -v 7000000; exec timeout %d coqc -q -Q %s/theories Verif -w none -time %s %s/theories/%s.v' % (TMO, d, ' '.join(extra), d, f)
    p = subprocess.run(['bash', '-c', cmd], cwd=d, capture_output=True)
    return p.returncode, p.stdout.decode('utf8', 'replace'), p.stderr.decode('utf8', 'replace')

def bytes_off(text, line, ch):
    b = text.encode()
    pos = 0
    for _ in range(line - 1):
        pos = b.index(b'\n', pos) + 1
    return pos + ch

def proof_using():
    try: return json.load(open(ROOT + '/using.json'))
    except FileNotFoundError: return {}

def prepare():
    shutil.rmtree(BASE, ignore_errors=True)
    os.makedirs(ROOT, exist_ok=True)
    shutil.copytree(SRC, BASE, ignore=shutil.ignore_patterns('*.vo*', '*.glob', '.*.aux', 'Makefile*', '.Makefile*'))
    using = {}
    lock = threading.Lock()
    def one(f):
        rc, out, err = coqc(BASE, f, ['-set', '"Suggest Proof Using"'])
        if rc: raise SystemExit('baseline does not build: %s\n%s' % (f, err))
        for m in re.finditer(r'The proof of (\S+)\s+should start with one of the following commands:\s*(.*?)\n(?=\S|$)', out + '\n' + err, re.S):
            cands = re.findall(r'Proof using[^.]*\.', m.group(2))
            if cands:
                with lock: using[f + '.' + m.group(1)] = cands[-1]
    build(BASE, set(files(BASE)), one)
    json.dump(using, open(ROOT + '/using.json', 'w'), indent=1)
    graph()

def build(d, todo, one):
    dp = deps(d)
    done, running = set(), {}
    errors = []
    with cf.ThreadPoolExecutor(JOBS) as ex:
        while len(done) < len(todo):
            for f in files(d):
                if f in todo and f not in done and f not in running and not (dp.get(f, set()) & todo - done):
                    running[f] = ex.submit(one, f)
            fin, _ = cf.wait(list(running.values()), return_when=cf.FIRST_COMPLETED)
            for f in [f for f, fu in running.items() if fu in fin]:
                running.pop(f).result()
                done.add(f)

def graph():
    """lemma -> lemmas used in its statement or proof, from the .glob files"""
    g, kinds = {}, {}
    for f in files(BASE):
        text = open('%s/theories/%s.v' % (BASE, f)).read()
        b = text.encode()
        ls = lemmas(text)
        # offsets in bytes
        spans = [(len(text[:s].encode()), len(text[:e].encode()), n) for s, _, e, n, k in ls]
        for s, _, e, n, k in ls: kinds[f + '.' + n] = k
        for s, e, n in spans: g.setdefault(f + '.' + n, set())
        for line in open('%s/theories/%s.glob' % (BASE, f), errors='replace'):
            m = re.match(r'R(\d+):(\d+) (\S+) (\S+) (\S+) (\w+)', line)
            if m and m.group(3).startswith('Verif.'):
                o = int(m.group(1))
                nm = m.group(5)
                for s, e, n in spans:
                    if s <= o < e:
                        g[f + '.' + n].add(m.group(3)[len('Verif.'):] + '.' + nm)
                        break
    json.dump({'g': {k: sorted(v) for k, v in g.items()}, 'k': kinds}, open(ROOT + '/graph.json', 'w'))

def manifest():
    r = {}
    for c in json.load(open('/verif/MANIFEST.json'))['claims']:
        for t in c['theorems']: r[t] = c['property']
    return r

def run(m):
    """m: id, file, old, new, [nth], claim"""
    shutil.rmtree(WORK, ignore_errors=True)
    shutil.copytree(BASE, WORK)
    p = '%s/theories/%s.v' % (WORK, m['file'])
    s = open(p).read()
    n = s.count(m['old'])
    if n == 0 or (n > 1 and 'nth' not in m):
        return {'id': m['id'], 'error': 'text occurs %d times' % n}
    i = -1
    for _ in range(m.get('nth', 0) + 1): i = s.index(m['old'], i + 1)
    open(p, 'w').write(s[:i] + m['new'] + s[i + len(m['old']):])
    dp = deps(WORK)
    todo, ch = {m['file']}, True
    while ch:
        new = {f for f in dp if dp[f] & todo} | todo
        ch = new != todo
        todo = new
    using = proof_using()
    failed, fatal, stopped = [], [], []
    lock = threading.Lock()
    G = json.load(open(ROOT + '/graph.json'))
    g = G['g']
    man = manifest()
    wanted = set(re.findall(r'C\d\d', m['claim'])) if os.environ.get('MUT_STOP') else set()
    def affected():
        bad = {x.split(' ')[0] for x in failed}
        memo = {}
        def dep(x):
            if x in memo: return memo[x]
            memo[x] = False
            memo[x] = x in bad or any(dep(y) for y in g.get(x, []) if y != x)
            return memo[x]
        return sorted(x.split('.')[1] for x in g if x.split('.')[1] in man and dep(x))
    def one(f):
        q = '%s/theories/%s.v' % (WORK, f)
        if fatal: return
        while True:
            if stopped: return
            rc, out, err = coqc(WORK, f)
            if rc == 0 or stopped: return
            text = open(q).read()
            mm = re.search(r'File "[^"]*%s\.v", line (\d+), characters (\d+)-(\d+):\s*\nError' % f, err)
            if mm:
                off = bytes_off(text, int(mm.group(1)), int(mm.group(2)))
            else:
                ends = re.findall(r'^Chars (\d+) - (\d+) ', out, re.M)
                off = int(ends[-1][1]) + 1 if ends else 0
            hit = None
            for s0, p0, e0, nm, k in lemmas(text):
                if len(text[:s0].encode()) <= off < len(text[:e0].encode()) + (0 if mm else 1): hit = (s0, p0, e0, nm, k)
            if hit is None or text[hit[0]:hit[2]].endswith('Admitted.'):
                with lock: fatal.append('%s: %s' % (f, err.strip()[-600:]))
                return
            s0, p0, e0, nm, k = hit
            body = text[s0:e0]
            pm = re.search(r'\bProof\b[^.]*\.', body)
            stmt = body[:pm.start()] if pm else body
            u = using.get(f + '.' + nm)
            if k == 'Example' or pm:
                text = text[:s0] + stmt + (u if u else 'Proof.') + ' Admitted.' + text[e0:]
            else:
                with lock: fatal.append('%s: no proof in %s' % (f, nm))
                return
            open(q, 'w').write(text)
            with lock:
                failed.append(f + '.' + nm + ('' if mm else ' (no answer)'))
                if wanted & {man[t] for t in affected()}:
                    stopped.append(True)
                    subprocess.run(['pkill', '-f', WORK + '/theories/'])
    build(WORK, todo, one)
    hitm = affected()
    return {'id': m['id'], 'file': m['file'], 'claim': m['claim'], 'broken': sorted(failed),
            'manifest': hitm, 'props': sorted({man[t] for t in hitm}), 'fatal': fatal, 'stopped': bool(stopped)}

def main():
    global JOBS
    a = sys.argv[1:]
    if a[0] == '-j': JOBS = int(a[1]); a = a[2:]
    if a[0] == 'prepare': prepare()
    elif a[0] == 'graph': graph()
    else:
        for m in json.load(open(a[1])):
            if len(a) > 2 and m['id'] not in a[2:]: continue
            r = run(m)
            print(json.dumps(r), flush=True)
main()
