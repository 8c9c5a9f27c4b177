#!/usr/bin/env python3
"""Test the theorems against wrong programs.

usage: mutate.py mutations.jsonl out.jsonl
Each mutation: {"file", "definition", "old", "new", "edit", "claim"}; old must occur exactly once
(or give "nth").  The tree /tmp/mw/base (or $MW/base) is copied to /tmp/mw/tree, the edit is applied, everything is rebuilt.
A proof that no longer goes through is replaced by Admitted and the build goes on, so at the end
Print Assumptions tells which property theorems depend on a broken proof."""
import json, os, re, shutil, subprocess, sys, time
DIR = os.environ.get('MW', '/tmp/mw')
BASE, TREE = DIR + '/base', DIR + '/tree'
TIMEOUT = 240
STMT = re.compile(r'^\s*(?:Local |Global |#\[[^\]]*\] )*(Lemma|Theorem|Example|Corollary|Fact|Remark|Instance|Definition|Fixpoint|Program Definition)\s+([A-Za-z0-9_\']+)', re.M)

def sh(cmd, cwd=None, timeout=None):
    try:
        p = subprocess.run(cmd, cwd=cwd, shell=True, capture_output=True, text=True, errors='replace', timeout=timeout)
        return p.returncode, p.stdout + p.stderr
    except subprocess.TimeoutExpired:
        return 124, ''

def admit(path, off):
    """Replace the proof around byte offset off by Admitted; returns (lemma, where)."""
    b = open(path, 'rb').read()
    head = b[:off].decode(errors='replace'); s = b.decode(errors='replace')
    pos = len(head)
    last = None
    for m in STMT.finditer(s):
        if m.start() <= pos: last = m
        else: break
    if last is None: return None, 'header'
    pr = re.compile(r'\bProof\b[^.]*\.').search(s, last.start())
    end = re.compile(r'\b(Qed|Defined|Admitted|Abort)\.').search(s, pr.end()) if pr else None
    if not pr or not end or end.end() < pos - 2: return last.group(2), 'statement'
    if pos < pr.start(): 
        # statement itself does not typecheck: drop it
        s = s[:last.start()] + s[end.end():]
        open(path, 'w').write(s); return last.group(2), 'dropped'
    if end.group(1) == 'Admitted': return last.group(2), 'again'
    s = s[:pr.start()] + 'Proof. Admitted.' + s[end.end():]
    open(path, 'w').write(s)
    return last.group(2), 'proof'

def lineoff(path, line, ch):
    b = open(path, 'rb').read().split(b'\n')
    return sum(len(x) + 1 for x in b[:line - 1]) + ch

def build(log):
    broken = []
    for rnd in range(400):
        rc, out = sh("make -k -j4 COQC='timeout %d coqc'" % TIMEOUT, TREE, 5000)
        if rc == 0: return broken, True
        progress = False; seen = set()
        for m in re.finditer(r'File "\./(theories/[^"]+)", line (\d+), characters (\d+)-(\d+):\nError', out):
            f = m.group(1)
            if f in seen: continue
            seen.add(f)
            name, how = admit(os.path.join(TREE, f), lineoff(os.path.join(TREE, f), int(m.group(2)), int(m.group(3))))
            log('   %s %s %s' % (f, name, how))
            if how in ('proof', 'dropped'): broken.append([f, name, how]); progress = True
            else: return broken + [[f, name, how]], False
        for m in re.finditer(r'\*\*\* \[[^\]]*?(theories/\S+?)\.vo\] Error (124|137)', out):
            f = m.group(1) + '.v'
            if f in seen: continue
            seen.add(f)
            rc2, o2 = sh("timeout %d coqc -time -Q theories Verif %s" % (TIMEOUT, f), TREE)
            offs = [int(x) for x in re.findall(r'^Chars (\d+) -', o2, re.M)]
            ends = [int(x) for x in re.findall(r'^Chars \d+ - (\d+)', o2, re.M)]
            name, how = admit(os.path.join(TREE, f), (ends[-1] + 3) if ends else 0)
            log('   timeout %s %s %s' % (f, name, how))
            if how in ('proof', 'dropped'): broken.append([f, name, how + ' (timeout)']); progress = True
            else: return broken + [[f, name, how]], False
        if not progress:
            log(out[-1500:]); return broken, False
    return broken, False

def failing(broken):
    names = {b[1] for b in broken}
    bad = []
    for f in sorted(os.listdir(TREE + '/theories')):
        if not (f.startswith('Properties') and f.endswith('.v')): continue
        src = open(TREE + '/theories/' + f).read()
        # not rebuilt: it does not depend on the edited file
        if os.path.getmtime(TREE + '/theories/' + f + 'o') == os.path.getmtime(BASE + '/theories/' + f + 'o'): continue
        rc, out = sh("coqc -Q theories Verif theories/" + f, TREE, 900)
        order = re.findall(r'Print Assumptions ([A-Za-z0-9_\']+)\.', src)
        parts = re.split(r'^(?=Axioms:|Closed under the global context)', out, flags=re.M)
        parts = [p for p in parts if p.startswith(('Axioms:', 'Closed'))]
        for th, p in zip(order, parts):
            if any(re.search(r'^(?:\w+\.)*%s\b' % re.escape(n), p, re.M) for n in names): bad.append(th)
    bad += [b[1] for b in broken if b[0].startswith('theories/Properties') and b[1] not in bad]
    return bad

def main():
    muts = [json.loads(l) for l in open(sys.argv[1]) if l.strip()]
    outp = sys.argv[2]
    done = set()
    if os.path.exists(outp): done = {json.loads(l)['key'] for l in open(outp)}
    log = lambda s: print(s, flush=True)
    for m in muts:
        key = m['file'] + '|' + m['old'] + '|' + m['new'] + '|' + str(m.get('nth', 0))
        if key in done: continue
        t0 = time.time()
        sh("rm -rf %s; cp -a %s %s" % (TREE, BASE, TREE))
        p = TREE + '/theories/' + m['file']
        s = open(p).read()
        n = s.count(m['old'])
        if n == 0 or (n > 1 and 'nth' not in m): log('SKIP (%d matches) %s' % (n, key)); continue
        parts = s.split(m['old']); k = m.get('nth', 0)
        s = m['old'].join(parts[:k + 1]) + m['new'] + m['old'].join(parts[k + 1:])
        open(p, 'w').write(s)
        log('== %s: %s' % (m['file'], m['edit']))
        broken, ok = build(log)
        bad = failing(broken) if ok else ['(build stopped)'] + [b[1] for b in broken]
        rec = dict(key=key, definition=m['definition'], file=m['file'], edit=m['edit'], breaks=m['claim'],
                   failed=bad, broken=[b[0][9:-2] + '.' + str(b[1]) + ('' if b[2] == 'proof' else ' (' + b[2] + ')') for b in broken], ok=ok, secs=int(time.time() - t0))
        open(outp, 'a').write(json.dumps(rec) + '\n')
        log('   -> %s (%d s)' % (bad, rec['secs']))
main()
