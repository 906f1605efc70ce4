#!/usr/bin/env python3
"""Seed bugs into a scratch copy of the model and report which theorems notice.

usage: mutate.py SPEC.json [--jobs N] [--near]
--near: first build only the property files of the claims in "breaks" and what they import;
        only when no theorem there notices are the other files built too; stops at the first file
        in which a theorem of these claims breaks.
SPEC.json: list of {"file": "Model_X.v", "definition": ..., "old": ..., "new": ..., "claim": ..., "breaks": ["C01", ...]}
The copy lives in /tmp/mut*; /verif itself only gets new lines in seeded/LOG.jsonl.
A statement whose proof script breaks is stubbed in the scratch copy, so that the remaining
files still compile; a property theorem counts as failed when its own proof breaks or when it
depends (Print Assumptions) on a stubbed lemma.
"""
import json, os, re, shutil, subprocess, sys
from concurrent.futures import ThreadPoolExecutor, as_completed
ROOT = "/verif/rocq"
NEAR = "--near" in sys.argv
DECL = re.compile(r"^\s*(?:#\[[^\]]*\]\s*)?(?:Local\s+|Global\s+)?(Theorem|Lemma|Corollary|Example|Fact|Remark|Instance|Definition|Fixpoint|Program|Record|Inductive|Goal)\s+([A-Za-z0-9_']+)?", re.M)

def files():
    return [l.strip()[9:-2] for l in open(ROOT + "/_CoqProject") if l.startswith("theories/")]

def deps(names):
    d = {}
    for n in names:
        s = open(f"{ROOT}/theories/{n}.v").read()
        imps = set()
        for m in re.finditer(r"From Verif Require (?:Import |Export |)([^.]*)\.", s):
            imps |= set(m.group(1).split())
        d[n] = imps
    return d

def coqc(d, name, timeout=420):
    try:
        p = subprocess.run(["coqc", "-time", "-Q", "theories", "Verif", f"theories/{name}.v"], cwd=d,
                           stdout=subprocess.PIPE, stderr=subprocess.STDOUT, timeout=timeout)
        out, rc = p.stdout.decode(errors="replace"), p.returncode
        if rc == 0:
            return 0, None, out
        m = re.search(r'File "[^"]*", line (\d+), characters (\d+)-(\d+):\n(?:[^\n]*\n)*?Error', out)
        ms = [m for m in re.finditer(r'File "[^"]*", line (\d+)', out)]
        if ms:
            return 1, int(ms[-1].group(1)), out
    except subprocess.TimeoutExpired as e:
        out = (e.stdout or b"").decode(errors="replace")
    cs = re.findall(r"^Chars (\d+) - (\d+)", out, re.M)
    pos = int(cs[-1][1]) + 1 if cs else 0
    src = open(f"{d}/theories/{name}.v", "rb").read()
    return 1, src[:pos].count(b"\n") + 1, out

def stub(d, name, line):
    path = f"{d}/theories/{name}.v"
    s = open(path).read()
    offs = [0]
    for l in s.split("\n"):
        offs.append(offs[-1] + len(l) + 1)
    pos = offs[line] - 1
    best = None
    for m in DECL.finditer(s):
        if m.start() > pos: break
        best = m
    if best is None: return None
    kind, nm = best.group(1), best.group(2)
    q = re.compile(r"\b(Qed|Defined)\.").search(s, best.start())
    pr = re.compile(r"\bProof\b").search(s, best.start())
    if pr is None or q is None or pr.start() > q.start() or pr.start() > pos + 4000:
        return (kind, nm, False)
    nxt = DECL.search(s, best.end())
    if nxt and nxt.start() < pr.start():
        return (kind, nm, False)
    if pos < pr.start() - 1 and s[:pr.start()].count("\n") + 1 > line:
        return (kind, nm, False)
    s = s[:pr.start()] + "Proof. Admitted." + s[q.end():]
    open(path, "w").write(s)
    return (kind, nm, True)

def drop_statement(d, name, nm):
    """The statement itself no longer typechecks / computes: remove the whole declaration."""
    path = f"{d}/theories/{name}.v"
    s = open(path).read()
    m = re.search(r"^\s*(?:Theorem|Lemma|Corollary|Example)\s+" + re.escape(nm) + r"\b", s, re.M)
    q = re.compile(r"\b(Qed|Defined|Admitted)\.").search(s, m.start())
    s = s[:m.start()] + "\n" + s[q.end():]
    s = re.sub(r"Print Assumptions " + re.escape(nm) + r"\.", "", s)
    open(path, "w").write(s)

def near(names, dp, claims):
    """The property files that state a theorem of one of the claims, and everything they import."""
    want = {n for n in names if n.startswith("Prop_") and
            {t.split("_")[0] for t in re.findall(r"^Theorem (C\d+_\w+)", open(f"{ROOT}/theories/{n}.v").read(), re.M)} & set(claims)}
    todo = list(want)
    while todo:
        for m in dp[todo.pop()] & set(names) - want:
            want.add(m); todo.append(m)
    return want

def run(i, mu):
    if NEAR:
        r = run1(i, mu, True)
        if "error" in r or r["theorems_failed"] or r["typecheck"]:
            return r
    return run1(i, mu, False)

def run1(i, mu, close):
    d = f"/tmp/mut{os.getpid()}_{i}"
    shutil.rmtree(d, ignore_errors=True)
    shutil.copytree(ROOT, d, symlinks=True)
    names = files(); dp = deps(names)
    order, todo = [], list(names)
    while todo:  # dependency order, whatever the order of _CoqProject
        ready = [n for n in todo if not (dp[n] & set(todo) - {n})]
        order += ready; todo = [n for n in todo if n not in ready]
    names = [n for n in order if n in near(names, dp, mu.get("breaks", []))] if close else order
    base = mu["file"].replace(".v", "")
    path = f"{d}/theories/{base}.v"
    s = open(path).read()
    if s.count(mu["old"]) != 1:
        return {"error": f"pattern occurs {s.count(mu['old'])} times", **mu}
    open(path, "w").write(s.replace(mu["old"], mu["new"]))
    dirty = {base}
    failed, broken, examples = [], [], []
    for n in names:
        if n != base and not (dp[n] & dirty): continue
        dirty.add(n)
        for _ in range(200):
            rc, line, out = coqc(d, n)
            if rc == 0: break
            r = stub(d, n, line)
            if r is None or not r[2]:
                if r and r[0] in ("Theorem", "Lemma", "Corollary", "Example"):
                    drop_statement(d, n, r[1]); (examples if r[0] == "Example" else failed).append(r[1]); continue
                broken.append(f"{n}:{line} {r} {out[-300:]}"); break
            (examples if r[0] == "Example" else failed).append(r[1])
        if broken: break
        if close and any(re.match(r"C\d+_", f) and f.split("_")[0] in mu.get("breaks", []) for f in failed): break
    hit = set(f for f in failed if re.match(r"C\d+_", f))
    if not broken:
        ths = []
        for n in sorted(dirty):
            if n.startswith("Prop_"):
                ths += [(n, t) for t in re.findall(r"^Theorem (C\d+_\w+)", open(f"{d}/theories/{n}.v").read(), re.M)]
        if ths:
            with open(f"{d}/theories/ZZ.v", "w") as f:
                for n in sorted({n for n, _ in ths}): f.write(f"From Verif Require {n}.\n")
                for n, t in ths: f.write(f'Goal True. idtac "@@ {t}". Abort.\nPrint Assumptions {n}.{t}.\n')
            out = subprocess.run(["coqc", "-Q", "theories", "Verif", "theories/ZZ.v"], cwd=d, stdout=subprocess.PIPE, stderr=subprocess.STDOUT).stdout.decode()
            stubs = set(failed)
            for blk in out.split("@@ ")[1:]:
                t = blk.split()[0]
                ids = set(x.split(".")[-1] for x in re.findall(r"[A-Za-z_][\w'.]*", blk))
                if ids & stubs: hit.add(t)
    shutil.rmtree(d, ignore_errors=True)
    return {"definition": mu["definition"], "file": mu["file"], "edit": mu.get("edit") or f"{mu['old']}  ==>  {mu['new']}",
            "claim_broken": mu["claim"], "breaks": mu.get("breaks", []),
            "theorems_failed": sorted(hit), "lemmas_failed": sorted(set(failed) - hit), "examples_failed": examples,
            "built": "files of the named claims" if close else "all", "typecheck": broken, "theorems_tightened": mu.get("tightened", [])}

def main():
    global ROOT
    snap = f"/tmp/mutbase{os.getpid()}"
    shutil.copytree(ROOT, snap, symlinks=True)
    ROOT = snap
    spec = json.load(open(sys.argv[1]))
    jobs = int(sys.argv[sys.argv.index("--jobs") + 1]) if "--jobs" in sys.argv else 3
    with ThreadPoolExecutor(jobs) as ex:
        for fut in as_completed([ex.submit(run, i, m) for i, m in enumerate(spec)]):
            r = fut.result()
            if "error" in r:
                print("ERROR", r["error"], r["old"]); continue
            got = {t.split("_")[0] for t in r["theorems_failed"]}
            miss = [c for c in r["breaks"] if c not in got]
            print(("MISSED " + str(miss)) if miss else "caught", r["definition"], "|", r["edit"][:100], "|", r["theorems_failed"], "| ex", r["examples_failed"], r["typecheck"], flush=True)
            r["missed"] = miss
            with open("/verif/seeded/LOG.jsonl", "a") as f:
                f.write(json.dumps(r) + "\n")
    shutil.rmtree(snap, ignore_errors=True)
if __name__ == "__main__":
    main()
