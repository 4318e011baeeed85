#!/usr/bin/env python3
"""Try one wrong program: copy the development to a scratch directory, edit one
definition, rebuild, and report which proofs fail and which property theorems
depend on them.

usage: mutate.py SCRATCH FILE OLD NEW [FILE OLD NEW ...]

A proof that fails is replaced by Admitted in the scratch copy, so that the
build goes on; Print Assumptions of the property theorems then names it."""
import os, re, subprocess, sys, shutil, glob, json, time

def run(cmd, cwd, timeout=3600):
    try:
        p = subprocess.run(cmd, cwd=cwd, shell=True, stdout=subprocess.PIPE, stderr=subprocess.STDOUT, timeout=timeout, text=True, errors="replace")
        return p.returncode, p.stdout
    except subprocess.TimeoutExpired as e:
        return 124, (e.stdout or b"").decode(errors="replace")

START = re.compile(r"^(?:Local |Global |#\[[^\]]*\] )?(Lemma|Theorem|Corollary|Example|Remark|Fact|Definition|Fixpoint|Instance|Program)\s+([A-Za-z0-9_']+)", re.M)

def enclosing(src, off):
    last = None
    for m in START.finditer(src):
        if m.start() > off: break
        last = m
    return last

def admit(path, off):
    src = open(path).read()
    m = enclosing(src, off)
    if not m: return None
    nxt = START.search(src, m.end())
    body = src[m.start(): nxt.start() if nxt else len(src)]
    p = re.search(r"\bProof\b[^.]*\.", body)
    q = re.search(r"\b(Qed|Defined)\.", body)
    if m.group(1) in ("Definition", "Fixpoint") and not p: return None
    if not p or not q: return None
    body = body[:p.start()] + "Proof. Admitted." + body[q.end():]
    open(path, "w").write(src[:m.start()] + body + (src[nxt.start():] if nxt else ""))
    return m.group(2)

def offset(src, line, col):
    lines = src.encode().split(b"\n")
    return len((b"\n".join(lines[:line - 1]) + b"\n").decode()) + col

def main():
    scratch, edits = sys.argv[1], sys.argv[2:]
    shutil.rmtree(scratch, ignore_errors=True)
    subprocess.run(f"cp -a {os.environ.get('MUT_SRC', '/verif/rocq')} {scratch}", shell=True, check=True)
    for file, old, new in zip(edits[0::3], edits[1::3], edits[2::3]):
        path = f"{scratch}/theories/{file}"
        s = open(path).read()
        assert s.count(old) == 1, f"{s.count(old)} occurrences"
        open(path, "w").write(s.replace(old, new))
    begun = time.time() - 1
    run("coq_makefile -f _CoqProject -o Makefile", scratch)
    failed, stuck = [], []
    for it in range(60):
        code, out = run("make -k -j2 COQC='timeout 150 coqc'", scratch)
        if code == 0: break
        errs = set(re.findall(r'File "\./(theories/[A-Za-z0-9_]+\.v)", line (\d+), characters (\d+)-\d+:\s*\n?Error', out))
        tmo = set(re.findall(r"(theories/[A-Za-z0-9_]+)\.vo\] Error 124", out))
        progress = False
        for f, l, c in errs:
            p = f"{scratch}/{f}"
            n = admit(p, offset(open(p).read(), int(l), int(c)))
            if n: failed.append(f"{os.path.basename(f)[:-2]}.{n}"); progress = True
            else: stuck.append(f"{f}:{l}")
        for f in tmo:
            _, o = run(f"timeout 150 stdbuf -oL coqc -time -Q theories Verif {f}.v", scratch)
            ch = re.findall(r"^Chars (\d+) - (\d+)", o, re.M)
            p = f"{scratch}/{f}.v"
            raw = open(p, "rb").read()
            off = len(raw[:int(ch[-1][1])].decode(errors="replace")) + 1 if ch else 0
            n = admit(p, off)
            if n: failed.append(f"{os.path.basename(f)}.{n} (time)"); progress = True
            else: stuck.append(f + ": time")
        if not progress:
            stuck.append(out[-600:]); break
    props = []
    fresh = lambda p: not os.path.exists(p[:-2] + ".vo") or os.path.getmtime(p[:-2] + ".vo") > begun
    for p in sorted(glob.glob(f"{scratch}/theories/Props*.v")):
        if not fresh(p): continue
        names = re.findall(r"^Print Assumptions ([A-Za-z0-9_']+)\.", open(p).read(), re.M)
        code, out = run(f"timeout 300 coqc -Q theories Verif theories/{os.path.basename(p)}", scratch)
        parts = re.findall(r"Closed under the global context|Axioms:", out)
        if code != 0 or len(parts) != len(names):
            props.append(f"{os.path.basename(p)}: not built")
        else:
            props += [n for n, a in zip(names, parts) if a == "Axioms:"]
    print(json.dumps({"failed": failed, "properties": props, "stuck": stuck}))

main()
