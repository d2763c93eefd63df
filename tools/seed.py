"""Tests the theorems against wrong programs. Works in a scratch copy (default /tmp/seed), never in the repository.

usage: seed.py base            build the scratch base from rocq/
       seed.py run FILE.json   apply each edit of FILE.json, print which theorems fail

With SEED_QUICK=1 the build stops at the first failure that some property theorem depends on.
With SEED_EXPECT=1 only what the properties named in "expect" need is built.
An edit is {"file", "definition", "old", "new", "edit", "claim", "expect": [property ids]}.
A proof that no longer goes through is replaced by Admitted in the scratch copy and the build goes on, so that every
affected theorem is found: a property theorem fails if it, or something it depends on, had to be admitted."""
import json, os, re, shutil, subprocess, sys
from concurrent.futures import ThreadPoolExecutor, wait, FIRST_COMPLETED
HERE = os.path.dirname(os.path.abspath(__file__))
ROCQ = os.path.join(HERE, "..", "rocq")
TOP = os.environ.get("SEED_DIR", "/tmp/seed")
QUICK = os.environ.get("SEED_QUICK") == "1"
EXPECT = os.environ.get("SEED_EXPECT") == "1"
TIMEOUT = int(os.environ.get("SEED_TIMEOUT", "300"))

def files():
    """The files of the scratch base, so that the repository can change during a run."""
    return [l.strip() for l in open(os.path.join(TOP, "base", "_CoqProject")) if l.strip().endswith(".v")]

def deps(d):
    out = subprocess.run(["coqdep", "-Q", "theories", "Verif"] + files(), cwd=d, capture_output=True, text=True).stdout
    res = {}
    for line in out.replace("\\\n", " ").split("\n"):
        m = re.match(r"(theories/\w+)\.vo .*?: (.*)", line)
        if m:
            res[m.group(1) + ".v"] = [x[:-1] for x in m.group(2).split() if x.endswith(".vo") and x.startswith("theories/")]
    return res

def coqc(d, f):
    log = os.path.join(d, f + ".log")
    with open(log, "w") as h:
        try:
            r = subprocess.run(["coqc", "-time", "-q", "-Q", "theories", "Verif", f], cwd=d, stdout=h, stderr=subprocess.STDOUT, timeout=TIMEOUT)
            return r.returncode, open(log).read()
        except subprocess.TimeoutExpired:
            return -1, open(log).read()

HEAD = re.compile(r"(?m)^[ \t]*(?:Local |Global |#\[[^\]]*\] )?(?:Lemma|Theorem|Example|Corollary|Definition|Instance|Fixpoint|Remark)\s+([\w']+)")
def admit(d, f, rc, out):
    """Replaces the failing proof; returns the name of the lemma."""
    path = os.path.join(d, f)
    src = open(path).read()
    ends = [int(x) for x in re.findall(r"(?m)^Chars \d+ - (\d+) ", out)]
    raw = src.encode()
    loc = re.findall(r'File "\./%s", line (\d+), characters (\d+)-(?:\d+):\nError' % re.escape(f), out)
    if loc:  # the failing sentence is reported as well
        start = 0
        for _ in range(int(loc[-1][0]) - 1): start = raw.index(b"\n", start) + 1
        ends = [x for x in ends if x <= start + int(loc[-1][1])]
    at = len(raw[:ends[-1] if ends else 0].decode())
    while at < len(src) and src[at].isspace(): at += 1
    head = None
    for h in HEAD.finditer(src):
        if h.start() <= at: head = h
        else: break
    if head is None: return None
    p = src.find("Proof", head.start())
    q = re.compile(r"\b(Qed|Defined)\.").search(src, max(at, head.start()))
    if p == -1 or q is None: return None
    if at < p:
        return None
    prefix = src[:at]
    if at < p + 6: prefix = src[:p] + "Proof. "
    open(path, "w").write(prefix + " Admitted." + src[q.end():])
    return head.group(1)

def build(d, todo, dp, stop=lambda admitted: False):
    """Compiles [todo] in dependency order; returns [(file, lemma)] admitted and files given up."""
    admitted, lost = [], []
    todo = set(todo); done = set(); running = {}
    def one(f):
        names = []
        while True:
            rc, out = coqc(d, f)
            if rc == 0: return f, names, None
            n = admit(d, f, rc, out)
            if n is not None and stop([(f, n)]): return f, names + [n], None
            if n is None:
                err = re.findall(r"(?s)File .*", out)
                return f, names, (err[-1] if err else out[-600:])[:600]
            names.append(n)
    with ThreadPoolExecutor(4) as ex:
        while todo or running:
            for f in sorted(todo):
                if not any(x in todo or x in running.values() for x in dp.get(f, [])):
                    if any(x in [l[0] for l in lost] for x in dp.get(f, [])):
                        todo.discard(f); lost.append((f, "needs a lost file")); continue
                    if len(running) < 4:
                        todo.discard(f); running[ex.submit(one, f)] = f
            if not running:
                continue
            fin, _ = wait(running, return_when=FIRST_COMPLETED)
            for t in fin:
                f = running.pop(t)
                _, names, err = t.result()
                admitted += [(f, n) for n in names]
                if err: lost.append((f, err))
                done.add(f)
                if stop(admitted): todo = set()
    return admitted, lost

def base():
    b = os.path.join(TOP, "base")
    shutil.rmtree(b, ignore_errors=True)
    os.makedirs(os.path.join(b, "theories"))
    shutil.copy(os.path.join(ROCQ, "_CoqProject"), b)
    for f in files():
        s = open(os.path.join(ROCQ, f)).read()
        s = re.sub(r"(?m)^Print Assumptions .*\n", "", s)
        open(os.path.join(b, f), "w").write(s)
    a, lost = build(b, files(), deps(b))
    print("admitted", a, "lost", lost)

def theorems_of(d, f):
    return re.findall(r"(?m)^(Theorem|Example) (\w+)", open(os.path.join(d, f)).read())

WORD = re.compile(r"[A-Za-z_][\w']*")
def mentions(d):
    """(file, lemma) -> the lemmas its statement and proof mention"""
    dp, order = deps(d), files()
    above = {}
    for f in order:
        above[f] = set(dp.get(f, [])).union(*[above[g] for g in dp.get(f, [])])
    heads, res = {}, {}
    for f in order:
        src = re.sub(r"(?s)\(\*.*?\*\)", "", open(os.path.join(d, f)).read())
        hs = list(HEAD.finditer(src))
        seen = set()
        for h, k in zip(hs, hs[1:] + [None]):
            out = set()
            for w in set(WORD.findall(src[h.end():k.start() if k else len(src)])):
                if w in seen: out.add((f, w))
                else: out |= {(g, w) for g in above[f] if w in heads[g]}
            res.setdefault((f, h.group(1)), set()).update(out)
            seen.add(h.group(1))
        heads[f] = seen
    return res

def affected(admitted, uses):
    bad = set(admitted)
    while True:
        more = {n for n in uses if n not in bad and uses[n] & bad}
        if not more: return bad
        bad |= more

def failed(d, admitted, uses, expect):
    """Property theorems whose proof leads to an admitted lemma: found by name in the sources, and confirmed with
    Print Assumptions for those of the properties in [expect]."""
    bad = affected(admitted, uses)
    direct = {n for _, n in admitted}
    res, text = [], ""
    for f in files():
        mod = os.path.basename(f)[:-2]
        if not mod.startswith("Props") or mod.endswith("Lemmas"): continue
        ts = [n for kind, n in theorems_of(d, f) if kind == "Theorem" and (f, n) in bad]
        if EXPECT: ts = [n for n in ts if n.split("_")[0] in expect]
        res += ts
        ex = [n for n in ts if n.split("_")[0] in expect]
        if ex: text += "From Verif Require %s.\n" % mod
        for n in ex: text += 'Goal True. idtac "@@ %s". Abort.\nPrint Assumptions %s.%s.\n' % (n, mod, n)
    if text:
        open(os.path.join(d, "Check.v"), "w").write(text)
        out = subprocess.run(["coqc", "-q", "-Q", "theories", "Verif", "Check.v"], cwd=d, capture_output=True, text=True).stdout
        for blk in out.split("@@ ")[1:]:
            n, _, rest = blk.partition("\n")
            ax = {x.split(".")[-1] for x in re.findall(r"(?m)^([\w.']+)\s*(?::|$)", rest)}
            if not ax & direct: res.remove(n.strip())
    return res

def run(spec):
    dp, uses = None, mentions(os.path.join(TOP, "base"))
    for e in json.load(open(spec)):
        d = os.path.join(TOP, "work")
        shutil.rmtree(d, ignore_errors=True)
        shutil.copytree(os.path.join(TOP, "base"), d, copy_function=shutil.copy2)
        if dp is None: dp = deps(d)
        f = "theories/" + e["file"]
        p = os.path.join(d, f)
        s = open(p).read()
        if s.count(e["old"]) != 1:
            print(json.dumps({"definition": e["definition"], "problem": "old text occurs %d times" % s.count(e["old"])}), flush=True); continue
        open(p, "w").write(s.replace(e["old"], e["new"]))
        aff = {f}
        while True:
            more = {g for g in dp if g not in aff and any(x in aff for x in dp[g])}
            if not more: break
            aff |= more
        for g in aff:
            for ext in ("vo", "vok", "vos", "glob"):
                q = os.path.join(d, g[:-1] + ext)
                if os.path.exists(q): os.remove(q)
        props = {(g, n) for g in files() if os.path.basename(g).startswith("Props") and not g.endswith("Lemmas.v")
                 for kind, n in theorems_of(d, g) if kind == "Theorem"}
        if EXPECT and e["expect"]:
            need = {g for g, n in props if n.split("_")[0] in e["expect"]}
            while True:
                more = {x for g in need for x in dp.get(g, [])} - need
                if not more: break
                need |= more
            aff &= need
        stop = (lambda a: bool(affected(a, uses) & props)) if QUICK else (lambda a: False)
        adm, lost = build(d, aff, dp, stop)
        fl = failed(d, adm, uses, e["expect"]) if not lost else []
        hit = [x for x in e["expect"] if any(t.startswith(x + "_") for t in fl)]
        print(json.dumps({"definition": e["definition"], "file": e["file"], "edit": e["edit"], "claim": e["claim"], "expect": e["expect"],
                          "caught": hit, "missed": [x for x in e["expect"] if x not in hit], "failed": fl,
                          "lemmas": adm, "lost": lost}), flush=True)

if __name__ == "__main__":
    if sys.argv[1] == "base": base()
    else: run(sys.argv[2])
