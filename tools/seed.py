#!/usr/bin/env python3
"""Seeded-bug run: seed.py FILE.json [scratch-dir].

FILE.json is a list of mutations:
  {"def": "File.definition", "edit": "what changes", "claim": "C07: what is now false",
   "subs": [["File.v", "old text", "new text"], ...], "targets": ["P_Base64", ...]}
Each is applied to a copy of /verif/rocq and the targets are rebuilt.  A proof that fails is
replaced by Admitted and the build goes on, so that all theorems that fail, or that now rest
on a failed lemma, are found.  One line per mutation goes to /tmp/seed_results.jsonl; once
the theorems that needed it are tightened it is copied to /verif/seeded/LOG.jsonl."""
import json, os, re, signal, subprocess, sys, time
SRC = '/verif/rocq/'
START = re.compile(r'^\s*(?:Local |Global )?(Theorem|Lemma|Corollary|Example|Remark|Fact)\s+(\w+)')

def items(text):
    """(kind, name, first line, last line) for each proof item, 1-based."""
    out, cur = [], None
    for n, l in enumerate(text.split('\n'), 1):
        m = START.match(l)
        if m and cur is None:
            cur = [m.group(1), m.group(2), n]
        if cur and re.search(r'(^|[\s.])(Qed|Defined|Admitted|Abort)\.\s*$', l):
            out.append((*cur, n)); cur = None
    return out

def admit(path, line):
    text = open(path).read()
    for kind, name, a, b in items(text):
        if a <= line <= b:
            ls = text.split('\n')
            body = '\n'.join(ls[a-1:b])
            m = re.search(r'(^|\s)Proof\b', body)
            if not m: return None
            new = body[:m.start()] + '\nProof. Admitted.' + '\n' * (body[m.start():].count('\n') - 1 if body[m.start():].count('\n') else 0)
            if 'Admitted.' in body and body.strip().endswith('Admitted.') and 'Proof. Admitted.' in body: return None
            ls[a-1:b] = new.split('\n')
            open(path, 'w').write('\n'.join(ls))
            return kind, name
    return None

def make(d, targets, limit):
    """Run make in a session of its own, so that all of it can be stopped."""
    p = subprocess.Popen(['make', '-k', '-j3', '-C', d] + targets, stdout=subprocess.PIPE, stderr=subprocess.PIPE, text=True, start_new_session=True)
    try:
        out, err = p.communicate(timeout=limit)
    except subprocess.TimeoutExpired:
        os.killpg(p.pid, signal.SIGKILL); p.communicate(); raise
    return subprocess.CompletedProcess(p.args, p.returncode, out, err)

def run(mut, d, limit):
    subprocess.run(['rm', '-rf', d], check=True)
    subprocess.run(['cp', '-a', SRC, d], check=True)
    for f, old, new in mut['subs']:
        p = f'{d}/theories/{f}'
        t = open(p).read()
        assert t.count(old) == 1, (f, old, t.count(old))
        open(p, 'w').write(t.replace(old, new))
    targets = [f'theories/{t}.vo' for t in mut['targets']]
    failed, blocked, outtext = [], [], ''
    t0 = time.time()
    while True:
        if time.time() - t0 > limit: blocked.append('time limit'); break
        try:
            r = make(d, targets, limit)
        except subprocess.TimeoutExpired:
            blocked.append('a proof no longer terminates'); break
        outtext += r.stdout
        errs = re.findall(r'File "\./theories/(\w+)\.v", line (\d+), characters [^\n]*\n(?=Error)', r.stderr)
        if r.returncode == 0 or not errs: break
        prog = False
        for f, n in dict(errs).items():
            x = admit(f'{d}/theories/{f}.v', int(n))
            if x is None: blocked.append(f'{f}.v:{n}')
            else: failed.append((f, *x)); prog = True
        if not prog: break
    # theorems resting on a failed lemma: Print Assumptions output
    rest = set()
    for t in mut['targets']:
        p = f'{d}/theories/{t}.v'
        text = open(p).read()
        try:
            r = subprocess.run(['coqc', '-Q', 'theories', 'Verif', f'theories/{t}.v'], cwd=d, capture_output=True, text=True, timeout=limit)
        except subprocess.TimeoutExpired:
            blocked.append('time'); continue
        names = re.findall(r'^Print Assumptions (\w+)\.', text, re.M)
        chunks = re.split(r'(?m)^(?=Closed under|Axioms:)', r.stdout)
        chunks = [c for c in chunks if c.startswith(('Closed', 'Axioms'))]
        for nm, c in zip(names, chunks):
            if any(re.search(rf'\b{l}\b', c) for _, _, l in failed): rest.add(nm)
    direct = [n for f, k, n in failed if re.match(r'C\d\d_', n) and k in ('Theorem', 'Corollary')]
    lemmas = [n for f, k, n in failed if not re.match(r'C\d\d_', n)]
    examples = [n for f, k, n in failed if k == 'Example' or n.endswith('_case')]
    ths = sorted(set(direct) | rest)
    return {'definition': mut['def'], 'edit': mut['edit'], 'claim': mut['claim'],
            'failed': ths, 'failed_lemmas': lemmas, 'failed_examples': examples, 'blocked': blocked,
            'wall': round(time.time() - t0)}

if __name__ == '__main__':
    muts = json.load(open(sys.argv[1])); d = sys.argv[2] if len(sys.argv) > 2 else '/tmp/seed'
    for m in muts:
        try:
            r = run(m, d, 500)
        except AssertionError as e:
            print('BAD', m['def'], e, flush=True); continue
        cid = m['claim'].split(':')[0].split(' ')[0]
        hit = [t for t in r['failed'] if t.startswith(cid + '_') and not t.endswith('_refuted')]
        tag = 'KILLED' if hit or (r['blocked']) else 'SURVIVED'
        print(tag, r['wall'], m['def'], '|', m['edit'], '|', hit, r['failed_lemmas'][:4], r['blocked'], flush=True)
        r['tightened'] = []
        open('/tmp/seed_results.jsonl', 'a').write(json.dumps(dict(r, tag=tag)) + '\n')
