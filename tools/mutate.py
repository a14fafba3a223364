#!/usr/bin/env python3
"""Mutation testing in a scratch copy.  usage: mutate.py MUTATIONS.json
Each entry: {"file": "X.v", "definition": .., "old": .., "new": .., "edit": .., "claim": .., "tightened": []}.
The examples of the Props files are removed first, so that only theorems can reject an edit.
Appends one line per attempt to seeded/LOG.jsonl:
  first_broken            the lemmas or theorems whose proofs broke (the first one of each file)
  theorems_failed         the property theorems that broke, or that use a broken lemma
  theorems_not_rechecked  the other theorems of the files that could not be built"""
import json, os, re, shutil, subprocess, sys, glob
sys.path.insert(0, os.path.dirname(os.path.abspath(__file__)))
import depend
root = os.path.abspath(os.path.join(os.path.dirname(__file__), ".."))
def theorems(path):
    return re.findall(r"^Theorem (\w+)", open(path).read(), re.M)
scratch = "/tmp/mut_" + os.path.basename(sys.argv[1]).split(".")[0]
base = scratch + "_base"
shutil.rmtree(base, ignore_errors=True)
subprocess.run(["cp", "-a", os.path.join(root, "rocq"), base], check=True)
_, req0 = depend.load(base + "/theories")
def over(f):
    seen, todo = set(), [f]
    while todo:
        g = todo.pop()
        if g not in seen: seen.add(g); todo += req0.get(g, [])
    return seen
for p in glob.glob(base + "/theories/*Props.v"):
    s = open(p).read()
    names = [n for n in re.findall(r"^Example (\w+)", s, re.M) if len(re.findall(r"\b%s\b" % n, s)) == 1]
    t = re.sub(r"^Example (\w+)\b.*?\b(?:Qed|Defined)\.[ \t]*$\n?", lambda k: "" if k[1] in names else k[0], s, flags=re.M | re.S)
    if not (over(os.path.basename(p)) & {m["file"] for m in json.load(open(sys.argv[1]))}): continue
    if t != s: open(p, "w").write(t)
subprocess.run("coq_makefile -f _CoqProject -o Makefile && make -j4", shell=True, cwd=base, check=True, capture_output=True)
for m in json.load(open(sys.argv[1])):
    shutil.rmtree(scratch, ignore_errors=True)
    subprocess.run(["cp", "-a", base, scratch], check=True)
    f = os.path.join(scratch, "theories", m["file"])
    s = open(f).read()
    assert s.count(m["old"]) == 1, (m["definition"], s.count(m["old"]))
    open(f, "w").write(s.replace(m["old"], m["new"]))
    dep = {}
    for v in glob.glob(scratch + "/theories/*.v"):
        dep[os.path.basename(v)[:-2]] = set(w for l in re.findall(r"From Verif Require (?:Import|Export)?([^.]*)\.", open(v).read()) for w in l.split())
    dirty = {m["file"][:-2]}
    while True:
        more = {k for k in dep if dep[k] & dirty} | dirty
        if more == dirty: break
        dirty = more
    for k in dirty:
        for ext in (".vo", ".vos", ".vok", ".glob"):
            if os.path.exists(f"{scratch}/theories/{k}{ext}"): os.remove(f"{scratch}/theories/{k}{ext}")
    subprocess.run("coq_makefile -f _CoqProject -o Makefile", shell=True, cwd=scratch, check=True, capture_output=True)
    removed = []
    for _ in range(6):
        r = subprocess.run("timeout 1500 make -k -j4", shell=True, cwd=scratch, capture_output=True, text=True)
        broke, failed = [], []
        for mm in re.finditer(r'File "\./(theories/\S+)", line (\d+)', r.stderr + r.stdout):
            if "Error" not in (r.stderr + r.stdout)[mm.end():mm.end()+60]:
                continue
            lines = open(os.path.join(scratch, mm[1])).read().split("\n")[:int(mm[2])]
            name = next((re.match(r"\s*(?:Lemma|Theorem|Example|Definition|Fixpoint|Corollary) (\w+)", l)[1] for l in reversed(lines)
                         if re.match(r"\s*(?:Lemma|Theorem|Example|Definition|Fixpoint|Corollary) (\w+)", l)), "?")
            broke.append(os.path.basename(mm[1]) + ": " + name)
        for p in sorted(glob.glob(scratch + "/theories/*Props.v")):
            if not os.path.exists(p[:-2] + ".vo"):
                failed += theorems(p)
        items, req = depend.load(scratch + "/theories")
        direct = depend.failed([tuple(b.split(": ", 1)) for b in broke], items, req)
        # a broken lemma that no theorem uses by name is removed, and the rest is checked again
        if direct or not broke: break
        for b in broke:
            g, n = b.split(": ", 1)
            q = os.path.join(scratch, "theories", g)
            t = open(q).read()
            u = re.sub(r"^[^\n]*\b(?:Lemma|Example|Corollary|Instance) %s\b.*?\b(?:Qed|Defined)\.[ \t]*$\n?" % re.escape(n), "", t, count=1, flags=re.M | re.S)
            if u != t: open(q, "w").write(u); removed.append(b)
    broke = removed + [b for b in broke if b not in removed]
    rest = [t for t in failed if t not in direct]
    rec = {"definition": m["file"] + ": " + m["definition"], "edit": m["edit"], "claim": m["claim"],
           "first_broken": broke, "theorems_failed": direct, "theorems_not_rechecked": rest, "caught": bool(direct), "theorems_tightened": m.get("tightened", [])}
    open(os.path.join(root, "seeded/LOG.jsonl"), "a").write(json.dumps(rec) + "\n")
    print("CAUGHT" if direct else "SURVIVED", m["definition"], "|", m["edit"], "|", broke, direct)
