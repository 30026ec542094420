#!/usr/bin/env python3
"""Seed wrong programs into a scratch copy of the model and see which property
theorems notice.

usage: mutate.py FILE.json   (list of {"file","def","old","new","claim","only"?})

For each entry: copy /verif/rocq to a scratch directory, apply the edit,
recompile every dependent file.  A lemma whose proof breaks is replaced by
Admitted in the scratch copy so that compilation can go on; the property
theorems that then rest on an admitted lemma (Print Assumptions), or that break
themselves, are the ones that failed.  One JSON line per attempt is appended to
/verif/seeded/LOG.jsonl.
"""
import json, os, re, shutil, subprocess, sys

SRC = os.environ.get("SRC", "/verif/rocq")
LOG = "/verif/seeded/LOG.jsonl"
SCRATCH = os.environ.get("SCRATCH", "/tmp/mutant")
STMT = re.compile(r"^\s*(?:Local |Global )?(Lemma|Theorem|Corollary|Example|Fact|Remark|Instance|Definition)\s+([\w']+)")

def deps():
    out = subprocess.run(["coqdep", "-Q", "theories", "Verif"] + files(), cwd=SRC, capture_output=True, text=True).stdout
    d = {}
    for line in out.replace("\\\n", " ").splitlines():
        m = re.match(r"(\S+)\.vo\b.*?:(.*)", line)
        if m:
            d[m.group(1) + ".v"] = [x[:-1] for x in m.group(2).split() if x.endswith(".vo") and x.startswith("theories/")]
    return d

def files():
    return [l.strip() for l in open(SRC + "/_CoqProject") if l.strip().endswith(".v")]

def dependents(f, d):
    res, order = {f}, files()
    changed = True
    while changed:
        changed = False
        for g in order:
            if g not in res and any(x in res for x in d.get(g, [])):
                res.add(g); changed = True
    # topological: repeatedly emit
    out, todo = [], [g for g in order if g in res]
    while todo:
        for g in todo:
            if not any(x in todo for x in d.get(g, []) if x != g):
                out.append(g); todo.remove(g); break
    return out

def admit(path, line):
    """Replace the proof containing [line] (1-based) by Admitted; return the name."""
    ls = open(path).read().split("\n")
    i = line - 1
    while i >= 0 and not STMT.match(ls[i]): i -= 1
    if i < 0: return None
    name = STMT.match(ls[i]).group(2)
    text = "\n".join(ls[i:])
    m = re.search(r"\bProof\b[^.]*\.", text)
    q = re.search(r"\b(Qed|Defined)\.", text)
    if not m or not q or q.start() < m.start(): return None
    if text.count("\n", 0, m.start()) + i + 1 > line and line - 1 != i: return None
    new = text[:m.start()] + "Admitted." + text[q.end():]
    open(path, "w").write("\n".join(ls[:i]) + ("\n" if i else "") + new)
    return name

LIMIT = "ulimit -v 5000000; exec timeout %d coqc %s -Q theories Verif %s"

def coqc(f, opt="", secs=200):
    return subprocess.run(["bash", "-c", LIMIT % (secs, opt, f)], cwd=SCRATCH, capture_output=True, text=True)

def last_line(f):
    """A run without an error position (time or memory exhausted): the line of the
    sentence after the last one that was completed."""
    pos = 0
    for m in re.finditer(r"Chars (\d+) - (\d+) ", coqc(f, "-time").stdout): pos = int(m.group(2))
    text = open(f"{SCRATCH}/{f}", "rb").read()
    while pos < len(text) and text[pos:pos+1].isspace(): pos += 1
    return text[:pos].count(b"\n") + 1

def main():
    muts = json.load(open(sys.argv[1]))
    d = deps()
    for mu in muts:
        shutil.rmtree(SCRATCH, ignore_errors=True)
        shutil.copytree(SRC, SCRATCH)
        p = f"{SCRATCH}/{mu['file']}"
        s = open(p).read()
        if s.count(mu["old"]) != 1:
            print("SKIP (found %d times): %s" % (s.count(mu["old"]), mu["old"])); continue
        open(p, "w").write(s.replace(mu["old"], mu["new"]))
        broken, failed, stuck = [], [], None
        todo = dependents(mu["file"], d)
        if "only" in mu: todo = [f for f in todo if any(f.startswith("theories/" + o) for o in mu["only"])]
        for f in todo:
            while True:
                try:
                    r = coqc(f)
                except Exception as e:
                    stuck = str(e); break
                if r.returncode == 0: break
                m = re.search(r'line (\d+), characters', r.stderr)
                if not m: line = last_line(f)
                else: line = int(m.group(1))
                if not line: stuck = f"{f}: {r.stderr[-200:]}"; break
                name = admit(f"{SCRATCH}/{f}", line)
                if name is None: stuck = f"{f}:{line} does not compile: {r.stderr.strip()[-160:]}"; break
                broken.append(name)
                if f.endswith("_props.v"): failed.append(name)
            if stuck: break
            if f.endswith("_props.v"):
                names = re.findall(r"Print Assumptions ([\w']+)\.", open(f"{SCRATCH}/{f}").read())
                outs = re.split(r"(?=Closed under the global context|Axioms:)", r.stdout)
                outs = [o for o in outs if o.startswith("Closed") or o.startswith("Axioms:")]
                for n, o in zip(names, outs):
                    if o.startswith("Axioms:") and any(re.search(r"\b%s\b" % re.escape(b), o) for b in broken) and n not in failed:
                        failed.append(n)
        rec = {"definition": mu["def"], "file": mu["file"], "edit": {"old": mu["old"], "new": mu["new"]},
               "claim_broken": mu["claim"], "first_broken_lemmas": broken[:8], "theorems_failed": failed,
               "theorems_tightened": mu.get("tightened", [])}
        if stuck: rec["compile_stopped"] = stuck
        if mu.get("note"): rec["note"] = mu["note"]
        open(LOG, "a").write(json.dumps(rec) + "\n")
        print(("CAUGHT " if failed else "INVALID " if stuck else "MISSED ") + mu["def"] + " :: " + mu["new"][:60].replace("\n", " ") + " -> " + ",".join(failed) + (" STOP " + stuck if stuck else ""))

main()
