#!/usr/bin/env python3
"""Apply realistic bugs to the model in a scratch copy and see which proofs break.

usage: mutate.py BATCH.json [JOBS]     (BATCH: list of {file, definition, old, new, claim, property})

The scratch copy of the last commit lives in /tmp/mutwork; edits already logged are skipped. One JSON line per mutation is appended to
seeded/LOG.jsonl: the definition, the edit, the claim it breaks, the lemma at which
each broken file stops and the manifest theorems that are no longer proved.
"""
import json, os, re, subprocess, sys

root = os.path.dirname(os.path.dirname(os.path.abspath(__file__)))
base, work = "/tmp/mutwork/base", "/tmp/mutwork/run"
batch = json.load(open(sys.argv[1]))
jobs = sys.argv[2] if len(sys.argv) > 2 else "2"
sh = lambda c: subprocess.run(c, shell=True, capture_output=True, text=True)

os.makedirs("/tmp/mutwork", exist_ok=True)
done = {(r["file"], r["edit"]["old"], r["edit"]["new"]) for r in map(json.loads, open(f"{root}/seeded/LOG.jsonl"))}
head = sh(f"git -C {root} rev-parse HEAD:rocq").stdout
stamp = f"{base}.stamp"
if not os.path.exists(stamp) or open(stamp).read() != head:
    new = f"{base}.new"
    sh(f"rm -rf {new} && mkdir -p {new} {base}/theories && git -C {root} archive HEAD rocq | tar x -C {new} --strip-components=1")
    # the repository's tests are Examples, not theorems: they must not hide a weak theorem
    keep = [l for l in open(f"{new}/_CoqProject") if "RepoTests" not in l]
    open(f"{new}/_CoqProject", "w").writelines(keep)
    # only changed files get a new time stamp, so that make rebuilds what depends on them
    for f in ["_CoqProject"] + [f"theories/{x}" for x in os.listdir(f"{new}/theories")]:
        a, b = open(f"{new}/{f}").read(), f"{base}/{f}"
        if not os.path.exists(b) or open(b).read() != a: open(b, "w").write(a)
    for x in os.listdir(f"{base}/theories"):
        if x.endswith(".v") and not os.path.exists(f"{new}/theories/{x}"): os.remove(f"{base}/theories/{x}")
r = sh(f"cd {base} && coq_makefile -f _CoqProject -o Makefile && make -j{jobs}")
assert r.returncode == 0, r.stderr[-2000:]
open(stamp, "w").write(head)
files = re.findall(r"theories/(\w+)\.v", open(f"{base}/_CoqProject").read())
deps = {f: set(re.findall(r"\b(\w+)\b", " ".join(re.findall(r"From Verif Require (?:Import )?([^.]*)\.", open(f"{base}/theories/{f}.v").read())))) & set(files) for f in files}
def downstream(fs):
    out = set(fs)
    while True:
        more = {f for f in files if f not in out and deps[f] & out}
        if not more: return out
        out |= more
manifest = {t for c in json.load(open(f"{root}/MANIFEST.json"))["claims"] for t in c["theorems"]}
decl = re.compile(r"^\s*(?:Global |Local )?(?:Theorem|Lemma|Corollary|Example|Definition|Fixpoint|Instance)\s+([\w']+)")

for m in batch:
    if (m["file"], m["old"], m["new"]) in done: continue
    sh(f"rm -rf {work} && cp -a {base} {work}")
    p = f"{work}/theories/{m['file']}"
    src = open(p).read()
    assert src.count(m["old"]) >= 1, ("no match", m)
    if src.count(m["old"]) > 1:
        i = src.index(m["definition"]); j = src.index(m["old"], i)
        new = src[:j] + m["new"] + src[j+len(m["old"]):]
    else:
        new = src.replace(m["old"], m["new"])
    open(p, "w").write(new)
    examples = []
    while True:   # an Example that fails is removed, so that the theorems after it are tried
        r = sh(f"cd {work} && timeout 3000 make -k -j{jobs}")
        out = r.stdout + r.stderr
        stops, failed, kinds = {}, set(), {}
        for f, line in re.findall(r'File "\./theories/(\w+)\.v", line (\d+)[^\n]*\n(?:Error|The)', out):
            if f in stops: continue
            name = None
            for l in open(f"{work}/theories/{f}.v").read().split("\n")[: int(line)]:
                d = decl.match(l)
                if d: name, kinds[f] = d.group(1), l.split()[0]
            stops[f] = name; failed.add(f)
        again = False
        for f in failed:
            if kinds.get(f) != "Example": continue
            txt = open(f"{work}/theories/{f}.v").read()
            new = re.sub(r"^Example " + re.escape(stops[f]) + r"\b.*?(?:Qed|Defined)\.", "", txt, count=1, flags=re.S | re.M)
            if new != txt:
                open(f"{work}/theories/{f}.v", "w").write(new); examples.append(f"{f}.{stops[f]}"); again = True
        if not again: break
    if m["file"][:-2] in stops:   # the edited model itself must compile
        print(m["definition"], "-> INVALID EDIT", stops, flush=True); continue
    if failed and all(kinds.get(f) in ("Definition", "Fixpoint") for f in failed):   # no longer type checks
        print(m["definition"], "-> INVALID EDIT", stops, flush=True); continue
    lost = set()
    for f in downstream(failed):
        names = re.findall(r"^\s*(?:Theorem|Lemma|Corollary)\s+([\w']+)", open(f"{work}/theories/{f}.v").read(), re.M)
        if f in failed and stops[f] in names: names = names[names.index(stops[f]):]
        elif f in failed:   # stopped at a definition or an example: everything after it
            txt = open(f"{work}/theories/{f}.v").read(); k = txt.find(stops[f] or "\0")
            names = re.findall(r"^\s*(?:Theorem|Lemma|Corollary)\s+([\w']+)", txt[max(k, 0):], re.M)
        lost |= set(names)
    rec = {"definition": m["definition"], "file": m["file"], "edit": {"old": m["old"], "new": m["new"]},
           "claim": m["claim"], "property": m.get("property", ""),
           "detected": bool(failed), "broken_at": stops, "examples_failed": examples,
           "theorems_failed": sorted(lost & manifest), "theorems_tightened": m.get("tightened", [])}
    if not failed and r.returncode: rec["note"] = "build stopped: " + out[-300:]
    open(f"{root}/seeded/LOG.jsonl", "a").write(json.dumps(rec) + "\n")
    print(m["definition"], "->", "detected" if failed else "SURVIVED", stops, flush=True)
