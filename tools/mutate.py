"""Writes small edits of the definitions of the model files, for seed.py.

usage: mutate.py SEED COUNT OUT.json [FILE.v ...]

Every edit changes one place of one definition: a constant, a comparison, a component, an operation, a keyword, or it
drops one step of a sequence. The edits are drawn at random, at most a few per definition."""
import json, os, random, re, sys
HERE = os.path.dirname(os.path.abspath(__file__))
TH = os.path.join(HERE, "..", "rocq", "theories")
FILES = ["TokModel.v", "ParModel.v", "GeoModel.v", "MatModel.v", "RenderModel.v"]

def swap(a, b): return [(a, b), (b, a)]
RULES = [(r"\b%s\b" % a, b, "%s replaced by %s" % (a, b)) for a, b in
         swap("true", "false") + swap("px", "py") + swap("py", "pz") + swap("vx", "vy") + swap("vy", "vz") + swap("nx", "ny") + swap("ny", "nz")
         + swap("e_add", "e_sub") + swap("e_mul", "e_add") + swap("e_lt", "e_gt") + swap("pmin", "pmax") + swap("b_min", "b_max")
         + swap("p_min", "p_max") + swap("I0", "I1") + swap("I1", "I2") + swap("I2", "I3") + swap("TInt", "TFloat") + swap("TLBracket", "TRBracket")
         + swap("pr_peek", "pr_next") + swap("tk_peek", "tk_next") + swap("parse_string", "parse_identifier") + swap("ps_ints", "ps_floats")
         + swap("orb", "andb") + swap("fst", "snd") + [("pos", "start_pos")] + swap("parse_floats", "parse_float")]
RULES += [(re.escape(a), b, "%s replaced by %s" % (a, b)) for a, b in
          swap("<?", "<=?") + swap(" && ", " || ") + [(" + ", " - "), (" - ", " + "), (" =? ", " <? "), ("negb ", "")]]
RULES += [(re.escape(a), b, "%s replaced by %s" % (a, b)) for a, b in
          [(" +[", " -["), (" -[", " +["), (" *[", " +["), (" /[", " *["), ("e_lt E e m", "e_lt E m e"), ("e_lt E m e", "e_lt E e m"), ("p2x", "p2y"), ("v2x", "v2y"), ("v2y", "v2x")]]
RULES += [(r"_ <-\?? (?:pr_next|tk_next) ;; ?", "", "a step dropped"), (r"_ <-\?? set_index \w+ ;;\s*", "", "index not restored")]
RULES += [(r"(?<![\w%.\"])0(?![\w.\"])", "1", "0 replaced by 1"), (r"(?<![\w%.\"])1(?![\w.\"])", "2", "1 replaced by 2"),
          (r"(?<![\w%.\"])2(?![\w.\"])", "3", "2 replaced by 3"), (r"(?<![\w%.\"])3(?![\w.\"])", "2", "3 replaced by 2")]
RULES += [(r's2l "(\w+)(\w)"', r's2l "\1"', "a keyword loses its last letter")]

def definitions(src):
    clean = re.sub(r"(?s)\(\*.*?\*\)", lambda m: " " * len(m.group()), src)
    heads = [m for m in re.finditer(r"(?m)^ *(?:Definition|Fixpoint|with) (\w+)", clean)]
    for h in heads:
        e = re.compile(r"\.(?=\s)").search(clean, h.end())
        if e: yield h.group(1), h.start(), e.end(), clean

def edits(f):
    src = open(os.path.join(TH, f)).read()
    for name, i, j, clean in definitions(src):
        body = clean.index(":=", i, j) + 2 if ":=" in clean[i:j] else i
        for pat, new, what in RULES:
            ms = list(re.finditer(pat, clean[body:j]))
            for k, m in enumerate(ms):
                a, b = body + m.start(), body + m.end()
                old = src[i:j]
                if src.count(old) != 1: continue
                rep = m.expand(new) if "\\" in new else new
                yield dict(file=f, definition=name, old=old, new=src[i:a] + rep + src[b:j],
                           edit="%s (occurrence %d)" % (what, k + 1) if len(ms) > 1 else what, claim="", expect=[])

if __name__ == "__main__":
    rnd = random.Random(int(sys.argv[1]))
    groups = {}
    for f in sys.argv[4:] or FILES:
        for e in edits(f): groups.setdefault((f, e["definition"]), []).append(e)
    for g in groups.values(): rnd.shuffle(g)
    res, order = [], sorted(groups)
    rnd.shuffle(order)
    while len(res) < int(sys.argv[2]) and any(groups.values()):
        for k in order:
            if groups[k]: res.append(groups[k].pop())
    res = res[:int(sys.argv[2])]
    json.dump(res, open(sys.argv[3], "w"), indent=1)
    print(len(res), "edits of", len(order), "definitions")
