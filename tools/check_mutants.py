#!/usr/bin/env python3
"""For the logged edits of one component, evaluate concrete instances of its
theorems on the edited model (checks/COMPONENT.check) and record the violated ones.

usage: check_mutants.py Array [--all]    (only entries without 'refuted_instances' unless --all)
"""
import json, os, re, subprocess, sys
root = os.path.dirname(os.path.dirname(os.path.abspath(__file__)))
comp = sys.argv[1]
src = f"{root}/rocq/theories"
work = f"/tmp/mutwork/check_{comp}"
chk = open(f"{root}/tools/checks/{comp}.check").read()
need = re.search(r"From Verif Require Import ([^.]*)\.", chk).group(1).split()
def closure(fs):
    out = []
    def go(f):
        if f in out: return
        for g in re.findall(r"From Verif Require Import ([^.]*)\.", open(f"{src}/{f}.v").read()):
            for h in g.split(): go(h)
        out.append(f)
    for f in fs: go(f)
    return out
files = closure(need)
os.makedirs(work, exist_ok=True)
sh = lambda c: subprocess.run(c, shell=True, capture_output=True, text=True)
log = [json.loads(l) for l in open(f"{root}/seeded/LOG.jsonl")]
for r in log:
    if r["file"][:-2] not in files or ("refuted_instances" in r and "--all" not in sys.argv): continue
    if r["file"] != need[1] + ".v": continue
    sh(f"rm -f {work}/*")
    ok = True
    for f in files:
        s = open(f"{src}/{f}.v").read()
        if f + ".v" == r["file"]:
            old, new = r["edit"]["old"], r["edit"]["new"]
            if old not in s: ok = False; break
            j = s.index(old, s.index(r["definition"]) if s.count(old) > 1 else 0)
            s = s[:j] + new + s[j+len(old):]
        open(f"{work}/{f}.v", "w").write(s)
        x = sh(f"cd {work} && timeout 300 coqc -Q . Verif {f}.v")
        if x.returncode: ok = False; print(x.stderr[-300:]); break
    if not ok: print("skip", r["definition"]); continue
    open(f"{work}/Check.v", "w").write(chk)
    x = sh(f"cd {work} && timeout 900 coqc -Q . Verif Check.v")
    m = re.search(r'"REPORT",(.*?)\)\s*:', x.stdout, re.S)
    r["refuted_instances"] = {k: int(n) for k, n in re.findall(r'\("([^"]*)", (\d+)\)', m.group(1))} if m else "check failed: " + x.stderr[-200:]
    print(r["definition"], "|", r["claim"], "->", r["refuted_instances"], flush=True)
    cur = [json.loads(l) for l in open(f"{root}/seeded/LOG.jsonl")]
    for c in cur:
        if c["file"] == r["file"] and c["edit"] == r["edit"]: c["refuted_instances"] = r["refuted_instances"]
    open(f"{root}/seeded/LOG.jsonl", "w").write("".join(json.dumps(c) + "\n" for c in cur))
