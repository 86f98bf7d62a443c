#!/usr/bin/env python3
"""Seeded-bug testing of the theorems, in a scratch copy outside /verif.

usage: mutate.py mutations.py [--only NAME ...]

Each mutation is m(name, file, old, new, claim_broken).  The harness copies
/verif/rocq (with its .vo files) to /tmp/mut, applies the edit and rebuilds.
Every proof that breaks is replaced by Admitted (in the scratch copy only) and
the build goes on; in the end Print Assumptions tells which of the manifest's
theorems rest on a broken proof.  Appends to /verif/seeded/LOG.jsonl."""
import json, os, re, subprocess, sys, time
SRC = BASE = os.environ.get('MUT_BASE', '/verif/rocq'); W = '/tmp/mut/rocq'; LOG = '/verif/seeded/LOG.jsonl'; SUG = '/tmp/sug.json'
HEAD = re.compile(r'^\s*(?:#\[[^\]]*\]\s*)?(?:Local |Global )?(?:Theorem|Lemma|Example|Corollary|Fact|Remark|Instance|Program Definition)\s+([A-Za-z0-9_\']+)', re.M)

def sh(cmd, timeout=2400):
    try:
        return subprocess.run(cmd, shell=True, stdout=subprocess.PIPE, stderr=subprocess.STDOUT, text=True, timeout=timeout).stdout
    except subprocess.TimeoutExpired as e:
        return (e.stdout or b'').decode() if isinstance(e.stdout, bytes) else (e.stdout or '')

def suggestions():
    """section variables used by each proof, per file (cached by mtime)"""
    d = json.load(open(SUG)) if os.path.exists(SUG) else {}
    os.makedirs('/tmp/sugw', exist_ok=True)
    for f in sorted(os.listdir(SRC + '/theories')):
        if not f.endswith('.v'): continue
        p = SRC + '/theories/' + f; t = os.path.getmtime(p)
        if f in d and d[f]['t'] == t: continue
        open('/tmp/sugw/' + f, 'w').write('Set Suggest Proof Using.\n' + open(p).read())
        out = sh('cd %s && coqc -Q theories Verif /tmp/sugw/%s' % (SRC, f))
        s = {}
        cur = None
        for l in out.splitlines():
            m = re.match(r'The proof of (\S+) should start', l)
            if m: cur = m.group(1); continue
            m = re.match(r'(Proof using.*?)\s*$', l)
            if m and cur: s[cur] = m.group(1)
        d[f] = {'t': t, 's': s}
        json.dump(d, open(SUG, 'w'))
    return d

def admit(f, line, sug):
    """admit the proof around the given line of file f; returns its name or None"""
    p = W + '/theories/' + f; src = open(p).read()
    pos = sum(len(l) + 1 for l in src.split('\n')[:line])  # end of that line
    ms = [m for m in HEAD.finditer(src) if m.start() < pos]
    if not ms: return None
    m = ms[-1]
    name = m.group(1)
    pr = re.compile(r'\bProof\b[^.]*\.').search(src, m.end())
    if not pr: return None
    # proof may start after a statement; end at Qed./Defined.
    en = re.compile(r'\b(Qed|Defined)\.').search(src, pr.end())
    nxt = HEAD.search(src, m.end())
    if not en or (nxt and pr.start() > nxt.start()): return None
    if pos <= pr.start(): return None  # the statement itself fails
    if line > src.count('\n', 0, en.end()) + 1: return None
    using = sug.get(f, {}).get('s', {}).get(name)
    body = (using or 'Proof.') + ' Admitted.'
    src2 = src[:pr.start()] + body + '\n' * src.count('\n', pr.start(), en.end()) + src[en.end():]
    open(p, 'w').write(src2)
    return name

def drop_statement(f, line):
    """the statement itself does not typecheck: remove the whole item"""
    p = W + '/theories/' + f; src = open(p).read()
    pos = sum(len(l) + 1 for l in src.split('\n')[:line])
    ms = [m for m in HEAD.finditer(src) if m.start() < pos]
    if not ms: return None
    m = ms[-1]; en = re.compile(r'\b(Qed|Defined|Admitted)\.').search(src, m.end())
    if not en: return None
    src2 = src[:m.start()] + '\n' * src.count('\n', m.start(), en.end()) + src[en.end():]
    open(p, 'w').write(src2)
    return m.group(1)

def theorems():
    man = json.load(open('/verif/MANIFEST.json')); names = []
    for c in man['claims']: names += c['theorems']
    where = {}
    for f in os.listdir(SRC + '/theories'):
        if f.endswith('.v'):
            for m in HEAD.finditer(open(SRC + '/theories/' + f).read()):
                if m.group(1) in names: where[m.group(1)] = f[:-2]
    return where

def run(mut, sug, where, targets=None):
    # targets: rebuild only these files first; the caller goes on to a full
    # rebuild when no theorem in them failed
    name, f, old, new, claim = mut
    goal = ' '.join('theories/%s.vo' % x for x in targets) if targets else ''
    if targets: where = {t: m for t, m in where.items() if m in targets}
    sh('rm -rf %s && mkdir -p /tmp/mut && cp -a %s %s' % (W, BASE, W))
    p = W + '/theories/' + f; src = open(p).read()
    if src.count(old) != 1:
        print('!!', name, 'pattern occurs', src.count(old), 'times'); return None
    open(p, 'w').write(src.replace(old, new))
    admitted, dropped, t0, hard = [], [], time.time(), []
    for it in range(60):
        out = sh('''cd %s && timeout 2000 make -k -j4 COQEXTRAFLAGS='-set "Default Timeout=45"' %s 2>&1''' % (W, goal))
        errs = re.findall(r'File "\./theories/([A-Za-z0-9_]+\.v)", line (\d+), characters [^\n]*\n(Error.*?)(?=\n\S*make|\nFile|\Z)', out, re.S)
        if not errs:
            if 'Error' in out: hard.append(out[-300:])
            break
        for (ef, ln, msg) in errs:
            n = admit(ef, int(ln), sug)
            if n is None:
                n = drop_statement(ef, int(ln))
                if n is None: hard.append('%s:%s %s' % (ef, ln, msg[:200])); 
                else: dropped.append(n)
            else: admitted.append(n)
        if hard: break
    # which manifest theorems rest on an admitted proof?
    failed, unknown = [], []
    if hard: print('   HARD', hard)
    byf = {}
    for t, m in where.items(): byf.setdefault(m, []).append(t)
    for m, ts in byf.items():
        if not os.path.exists(W + '/theories/%s.vo' % m): unknown += ts; continue
        q = 'From Verif Require Import %s.\n' % m
        open('/tmp/mut/q.v', 'w').write(q + ''.join('Print Assumptions %s.\n' % ('%s.%s' % (m, t)) if t not in dropped else '' for t in ts))
    # one query per file, all theorems
    for m, ts in byf.items():
        if m + '.vo' and not os.path.exists(W + '/theories/%s.vo' % m): continue
        live = [t for t in ts if t not in dropped and t not in admitted]
        failed += [t for t in ts if t in admitted or t in dropped]
        if not live: continue
        if not admitted: continue
        open('/tmp/mut/q.v', 'w').write('From Verif Require %s.\n' % m + ''.join('Goal True. idtac "@@%s". exact I. Qed.\nPrint Assumptions Verif.%s.%s.\n' % (t, m, t) for t in live))
        o = sh('cd %s && coqc -Q theories Verif /tmp/mut/q.v' % W)
        parts = o.split('@@')[1:]
        for part in parts:
            t = part.split('\n', 1)[0].strip()
            if any(re.search(r'(^|[\s.])%s\b *:|^\S*%s$' % (re.escape(a), re.escape(a)), part, re.M) for a in admitted): failed.append(t)
        if len(parts) != len(live): unknown += live; print('   query failed', m, o[-300:])
    rec = {'name': name, 'definition': f, 'edit': '%s  ==>  %s' % (old, new), 'breaks': claim,
           'broken_proofs': admitted + dropped, 'theorems_failed': sorted(set(failed)), 'not_determined': sorted(set(unknown)),
           'hard': hard, 'theorems_tightened': [], 'time': int(time.time() - t0)}
    return rec

if __name__ == '__main__':
    muts = []
    def m(name, f, old, new, claim): muts.append((name, f, old, new, claim))
    exec(open(sys.argv[1]).read())
    only = sys.argv[3:] if len(sys.argv) > 2 and sys.argv[2] == '--only' else None
    sug = suggestions(); where = theorems()
    done = set()
    if os.path.exists(LOG):
        for l in open(LOG): done.add(json.loads(l).get('name'))
    for mu in muts:
        if only and mu[0] not in only: continue
        if not only and mu[0] in done: continue
        T = os.environ.get('MUT_TARGETS')
        r = run(mu, sug, where, T.split()) if T else run(mu, sug, where)
        if r is None: continue
        if T and not r['theorems_failed']: r = run(mu, sug, where)
        print(mu[0], '|', mu[4], '| failed:', r['theorems_failed'], '| proofs:', r['broken_proofs'][:8], '| undet:', r['not_determined'][:3], r['time'], 's', flush=True)
        open('/tmp/mut_results.jsonl', 'a').write(json.dumps(r) + '\n')
