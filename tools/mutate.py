#!/usr/bin/env python3
"""Test the theorems against wrong programs.

Usage: mutate.py MUTANTS.json BASE WORKROOT OUT.jsonl [jobs]

MUTANTS.json  list of {"file", "definition", "old", "new", "edit", "claim"}
BASE          a built copy of /verif/rocq outside /verif
WORKROOT      directory for the scratch copies

For each mutant the edit is applied in a scratch copy and every file that depends on the edited one is
recompiled.  A proof that no longer goes through is replaced by Admitted in the scratch copy and the build
goes on, so that Print Assumptions finally tells which of the final theorems depend on a broken proof.
"""
import json, os, re, shutil, subprocess, sys
from concurrent.futures import ThreadPoolExecutor

START = re.compile(r'^[ \t]*(?:#\[[^\]]*\]\s*)?(?:Local |Global )?(?:Lemma|Theorem|Example|Corollary|Fact|Remark|Instance|Definition|Fixpoint)\s+([\w\']+)', re.M)
END = re.compile(r'\b(?:Qed|Defined|Admitted)\.')


def order(base):
    lines = open(os.path.join(base, '_CoqProject')).read().split()
    return [os.path.basename(x)[:-2] for x in lines if x.endswith('.v')]


def requires(base, names):
    deps = {}
    for n in names:
        text = open(os.path.join(base, 'theories', n + '.v')).read()
        d = set()
        for m in re.finditer(r'From Verif Require (?:Import|Export)?([^.]*)\.', text):
            d |= set(m.group(1).split())
        deps[n] = d & set(names)
    return deps


def dependents(base, name):
    names = order(base)
    deps = requires(base, names)
    bad = {name}
    out = []
    for n in names:
        if n == name or deps[n] & bad:
            bad.add(n)
            out.append(n)
    return out


def compile_one(work, name, timeout):
    """None when it compiles, else the character offset of the failing sentence"""
    p = subprocess.Popen(['stdbuf', '-oL', 'coqc', '-time', '-Q', 'theories', 'Verif', 'theories/%s.v' % name], cwd=work,
                         stdout=subprocess.PIPE, stderr=subprocess.STDOUT, text=True)
    hung = False
    try:
        out, _ = p.communicate(timeout=timeout)
    except subprocess.TimeoutExpired:
        p.kill()
        out, _ = p.communicate()
        hung = True
    if not hung and p.returncode == 0:
        return None, out
    ends = [int(m.group(1)) for m in re.finditer(r'^Chars \d+ - (\d+) ', out, re.M)]
    data = open(os.path.join(work, 'theories', name + '.v'), 'rb').read()
    off = ends[-1] + 1 if ends else 0
    m = re.search(r'File "[^"]*", line (\d+), characters (\d+)-(\d+):\s*\n(?:Error|.*\n?Error)', out)
    if m and not hung:
        line = int(m.group(1))
        off2 = sum(len(x) + 1 for x in data.split(b'\n')[:line - 1]) + int(m.group(2))
        off = max(off, off2) if off2 >= off else off2
    return off, out


def break_proof(work, name, off):
    """replace the proof around the byte offset by Admitted; returns the name of the lemma or None"""
    path = os.path.join(work, 'theories', name + '.v')
    data = open(path, 'rb').read()
    prefix = len(data[:off].decode('utf8', 'ignore'))
    text = data.decode('utf8')
    best = None
    for m in re.finditer(r'\bProof\.', text):
        e = END.search(text, m.end())
        if e and m.start() <= prefix + 1 and prefix < e.end():
            best = (m, e)
    if best is None:
        return None
    m, e = best
    starts = [s for s in START.finditer(text) if s.start() < m.start()]
    new = text[:m.start()] + 'Admitted.' + text[e.end():]
    open(path, 'w').write(new)
    return starts[-1].group(1)


def parse_assumptions(text, out):
    """theorems of a Props file whose Print Assumptions lists something"""
    wanted = re.findall(r'^Print Assumptions ([\w\']+)\.', text, re.M)
    # drop the timing lines
    body = re.sub(r'^Chars \d+ - \d+ .*$', '', out, flags=re.M)
    marks = [(m.start(), m.group(0)) for m in re.finditer(r'Closed under the global context|^Axioms:', body, re.M)]
    assert len(marks) == len(wanted), (len(marks), len(wanted))
    return [w for w, (_, k) in zip(wanted, marks) if k.startswith('Axioms')]


def run(args):
    k, mut, base, root = args
    work = os.path.join(root, 'w%d' % k)
    shutil.rmtree(work, ignore_errors=True)
    shutil.copytree(base, work)
    path = os.path.join(work, 'theories', mut['file'])
    text = open(path).read()
    res = dict(definition=mut['definition'], file=mut['file'], edit=mut['edit'], old=mut['old'], new=mut['new'],
               claim_broken=mut['claim'])
    if text.count(mut['old']) != 1:
        res['error'] = 'edit does not apply: %d matches' % text.count(mut['old'])
        return res
    open(path, 'w').write(text.replace(mut['old'], mut['new']))
    lemmas, failed = [], []
    try:
        for name in dependents(base, mut['file'][:-2]):
            for attempt in range(60):
                off, out = compile_one(work, name, 150)
                if off is None:
                    break
                broken = break_proof(work, name, off)
                if broken is None:
                    res['error'] = 'no proof at the error in %s: %s' % (name, re.sub(r'Chars .*\n', '', out)[-400:])
                    return res
                if name.startswith('Props_'):
                    failed.append(broken)
                else:
                    lemmas.append(broken)
            else:
                res['error'] = 'too many broken proofs in ' + name
                return res
            if name.startswith('Props_'):
                src = open(os.path.join(work, 'theories', name + '.v')).read()
                failed += [t for t in parse_assumptions(src, out) if t not in failed]
    finally:
        shutil.rmtree(work, ignore_errors=True)
    res['lemmas_failed'] = lemmas
    res['theorems_failed'] = failed
    return res


def main():
    muts = json.load(open(sys.argv[1]))
    base, root, outp = sys.argv[2:5]
    jobs = int(sys.argv[5]) if len(sys.argv) > 5 else 3
    os.makedirs(root, exist_ok=True)
    with ThreadPoolExecutor(jobs) as ex, open(outp, 'a') as f:
        for res in ex.map(run, [(k, m, base, root) for k, m in enumerate(muts)]):
            f.write(json.dumps(res) + '\n')
            f.flush()
            print(res['definition'], '|', res['edit'], '|', res['claim_broken'], '->',
                  res.get('error') or ' '.join(res['theorems_failed']) or 'NOTHING FAILED', flush=True)


main()
