"""Which property theorems mention a lemma, directly or through other lemmas (by the words of their statements and proofs)."""
import collections, glob, os, re
START = re.compile(r"^\s*(?:Local |Global |#\[\w+\] )?(Lemma|Theorem|Example|Definition|Fixpoint|Corollary|Fact|Remark|Instance|Inductive|Record|Notation) \"?(\w+)", re.M)
def strip_comments(s):
    out, depth, i = [], 0, 0
    while i < len(s):
        if s.startswith("(*", i): depth += 1; i += 2
        elif s.startswith("*)", i) and depth: depth -= 1; i += 2
        else:
            if not depth: out.append(s[i])
            i += 1
    return "".join(out)
def load(theories):
    """(file, name) -> (kind, words), and file -> files it rests on"""
    items, req = {}, {}
    for p in glob.glob(theories + "/*.v"):
        f, s = os.path.basename(p), strip_comments(open(p).read())
        req[f] = {w + ".v" for l in re.findall(r"From Verif Require (?:Import|Export)?([^.]*)\.", s) for w in l.split()}
        ms = list(START.finditer(s))
        for a, b in zip(ms, ms[1:] + [None]):
            items[f, a[2]] = (a[1], set(re.findall(r"[A-Za-z_][\w']*", s[a.end():b.start() if b else len(s)])))
    return items, req
def failed(broken, items, req):
    """the theorems of the Props files that rest on the broken names [(file, name)]"""
    over = {f: {f} for f in req}
    change = True
    while change:
        change = False
        for f in req:
            new = over[f].union(*[over.get(g, set()) for g in req[f]])
            if new != over[f]: over[f] = new; change = True
    bad, todo = set(broken), list(broken)
    users = collections.defaultdict(list)
    for k, (_, words) in items.items():
        for w in words: users[w].append(k)
    while todo:
        f, n = todo.pop()
        for k in users[n]:
            if k not in bad and items[k][0] != "Example" and f in over[k[0]]:
                bad.add(k); todo.append(k)
    return sorted(n for f, n in bad if f.endswith("Props.v") and items.get((f, n), ("", 0))[0] == "Theorem")
