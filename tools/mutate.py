"""Apply seeded bugs to a scratch copy of the model and see which theorems fail.
usage: mutate.py mutants.json   (list of {file, old, new, claim, [count]})"""
import json, os, re, subprocess, sys, shutil
SCR = "/tmp/mut"
BASE = "/tmp/mutbase"
SRC = "/verif/rocq"

def run(cmd, **kw):
    return subprocess.run(cmd, shell=True, capture_output=True, text=True, **kw)

def enclosing(path, line):
    name, dname = None, None
    for i, l in enumerate(open(path), 1):
        if i > line: break
        m = re.match(r"\s*(?:Local\s+)?(Theorem|Lemma|Corollary|Example|Fact|Remark|Definition|Fixpoint|Instance)\s+([\w']+)", l)
        if m: name = m.group(2)
    return name

def main():
    muts = json.load(open(sys.argv[1]))
    sys.stdout.reconfigure(line_buffering=True)
    if not os.path.exists(SCR): os.makedirs(SCR)
    run(f"rm -rf {SCR}; mkdir -p {SCR}x; cd /verif && git archive HEAD rocq | tar x -C {SCR}x && mv {SCR}x/rocq {SCR}")
    run("coq_makefile -f _CoqProject -o Makefile", cwd=SCR)
    r = run("make -j4", cwd=SCR)
    if r.returncode: print("baseline fails", r.stderr[-2000:]); return
    run(f"rm -rf {BASE}; cp -a {SCR} {BASE}")
    log = open("/verif/seeded/LOG.jsonl", "a")
    for m in muts:
        p = f"{SCR}/theories/{m['file']}"
        s = open(p).read()
        if s.count(m["old"]) < 1: print("NO MATCH", m["file"], m["old"][:60]); continue
        k = m.get("nth", 0)
        idx = -1
        for _ in range(k + 1): idx = s.index(m["old"], idx + 1)
        t = s[:idx] + m["new"] + s[idx + len(m["old"]):]
        open(p, "w").write(t)
        r = run("timeout 1500 make -k -j3", cwd=SCR)
        out = r.stdout + r.stderr
        fails = []
        for f, ln in re.findall(r'File "\./theories/(\w+\.v)", line (\d+), characters [^\n]*\nError', out):
            n = enclosing(f"{SCR}/theories/{f}", int(ln))
            fails.append(f"{f[:-2]}.{n}")
        # definition edited
        line = t[:idx].count("\n") + 1
        d = enclosing(p, line)
        notbuilt = [x for x in re.findall(r"theories/(\w+)\.vo", run("make -n", cwd=SCR).stdout)]
        notbuilt = sorted(set(notbuilt))
        rec = dict(definition=f"{m['file'][:-2]}.{d}", edit=f"{m['old']!r} -> {m['new']!r}", claim_broken=m["claim"], theorems_failed=fails,
                   files_not_built=notbuilt, theorems_tightened=m.get("tightened", []))
        if m.get("note"): rec["note"] = m["note"]
        model_fail = any(x.split(".")[0] == m["file"][:-2] for x in fails)
        print(("SURVIVED " if not fails else "MODEL-ERR " if model_fail else "killed   "), rec["definition"], "|", m["new"][:70].replace("\n", " "), "|", fails)
        if fails and not model_fail or m.get("log"):
            log.write(json.dumps(rec) + "\n"); log.flush()
        run(f"rm -rf {SCR}; cp -a {BASE} {SCR}")
main()
