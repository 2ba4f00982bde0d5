#!/usr/bin/env python3
"""Seeded-bug runner.

usage: mutate.py MUTATIONS.json [first] [last]

Each mutation is {"def", "file", "old", "new", "edit", "claim", "expect": [..]}.
The edit is made in a scratch copy of /verif/rocq, which is rebuilt. A lemma whose
proof no longer checks is admitted in the scratch copy and the build goes on, so that
afterwards `Print Assumptions` tells which property theorems depended on a broken
proof. One JSON line per mutation is appended to /tmp/mut/results.jsonl, from where it is
copied to seeded/LOG.jsonl.
"""
import json, os, re, subprocess, sys, shutil

SCRATCH = os.environ.get("SCRATCH", "/tmp/scratch")
JOBS = os.environ.get("JOBS", "2")
SRC = os.environ.get("SRC", "/verif/rocq")
HEAD = re.compile(r"^\s*(?:Local |Global |#\[[^\]]*\] )?(Lemma|Theorem|Example|Remark|Fact|Corollary|Instance|Definition)\s+([A-Za-z0-9_']+)")


def sh(cmd, timeout=None):
    return subprocess.run(cmd, shell=True, capture_output=True, text=True, timeout=timeout)


def admit(path, line):
    """Replace the proof around `line` by Admitted; return the lemma's name."""
    src = open(path).read().split("\n")
    start = None
    for i in range(min(line, len(src)) - 1, -1, -1):
        m = HEAD.match(src[i])
        if m:
            start, kind, name = i, m.group(1), m.group(2)
            break
    if start is None:
        return None
    # first "Proof" at or after start
    j = start
    while j < len(src) and not re.search(r"\bProof\b", src[j]):
        j += 1
    e = j
    while e < len(src) and not re.search(r"\b(Qed|Defined|Admitted)\.", src[e]):
        e += 1
    if e >= len(src) or e < line - 1 or re.search(r"\bAdmitted\.", src[e]):
        return None
    if j > line - 1:
        return None
    pre = src[j][: src[j].index("Proof")]
    new = [pre + "Proof. Admitted."] + [""] * (e - j)
    src[j : e + 1] = new
    open(path, "w").write("\n".join(src))
    return name


def main():
    muts = json.load(open(sys.argv[1]))
    lo = int(sys.argv[2]) if len(sys.argv) > 2 else 0
    hi = int(sys.argv[3]) if len(sys.argv) > 3 else len(muts)
    theorems = [t for c in json.load(open("/verif/MANIFEST.json"))["claims"] for t in c["theorems"]]
    for k in range(lo, hi):
        m = muts[k]
        sh(f"rm -rf {SCRATCH}/rocq; mkdir -p {SCRATCH} && cp -a {SRC} {SCRATCH}/rocq")
        rq = f"{SCRATCH}/rocq"
        f = f"{rq}/theories/{m['file']}"
        s = open(f).read()
        n = s.count(m["old"])
        if n != 1:
            print(k, "PATTERN COUNT", n, m["old"][:60], flush=True)
            continue
        open(f, "w").write(s.replace(m["old"], m["new"]))
        os.utime(f)
        sh(f"cd {rq} && coq_makefile -f _CoqProject -o Makefile")
        broken, dead = [], []
        wanted = set(re.findall(r"C\d\d\d?", m["claim"]))
        targets, props = [], []
        for p in [l.strip() for l in open(f"{rq}/_CoqProject")]:
            if p.startswith("theories/Props/"):
                names = re.findall(r"^Theorem (C\d\d\d?)", open(f"{rq}/{p}").read(), re.M)
                if wanted & set(names):
                    targets.append(p + "o")
                    props.append(p)
        ok = False
        for _ in range(60):
            r = sh(f"cd {rq} && make -k -j{JOBS} COQC='timeout 900 coqc' {' '.join(targets)} 2>&1")
            if r.returncode == 0:
                ok = True
                break
            out = r.stdout
            errs = re.findall(r'File "(\./theories/[^"]+)", line (\d+)[^\n]*\nError', out)
            progress = False
            for (fn, ln) in set(errs):
                nm = admit(f"{rq}/{fn}", int(ln))
                if nm:
                    broken.append(nm)
                    progress = True
                else:
                    dead.append(f"{fn}:{ln}")
            if not progress:
                for t in re.findall(r"\*\*\* \[[^\]]*: (theories/\S+\.vo)\] Error (\d+)", out):
                    dead.append(f"{t[0]} error {t[1]}")
                break
        affected = []
        if ok:
            mods = [p[len("theories/"):-2].replace("/", ".") for p in props]
            chk = "From Verif Require " + " ".join(mods) + ".\n"
            where = {}
            for p in props:
                for t in re.findall(r"^Theorem (\S+)", open(f"{rq}/{p}").read(), re.M):
                    where[t] = "Verif." + p[len("theories/"):-2].replace("/", ".") + "." + t
            for t in theorems:
                if t in where:
                    chk += f'Goal True. idtac "@@{t}". exact I. Qed.\nPrint Assumptions {where[t]}.\n'
            open("/tmp/mut/Chk.v", "w").write(chk)
            r = sh(f"cd {rq} && timeout 3000 coqtop -Q theories Verif < /tmp/mut/Chk.v 2>&1")
            cur = None
            for l in r.stdout.split("\n"):
                mm = re.search(r"@@(\S+)", l)
                if mm:
                    cur = mm.group(1)
                mm = re.match(r"(?:Coq < |Unnamed_thm\d* < )*([A-Za-z0-9_.']+)(\s*:|$)", l)
                if mm and cur and mm.group(1).split(".")[-1] in broken and cur not in affected:
                    affected.append(cur)
            for b in broken:
                if b in theorems and b not in affected:
                    affected.append(b)
        entry = {"definition": m["def"], "file": "theories/" + m["file"], "edit": m["edit"],
                 "breaks": m["claim"], "failed_theorems": affected,
                 "failed_lemmas_and_examples": broken, "not_compiled": dead, "tightened": []}
        if not ok and not affected:
            entry["note"] = "build did not finish"
        print(k, "OK" if affected else "SURVIVED?", m["def"], "|", m["edit"], "->", affected, "| broken", broken, "| dead", dead, flush=True)
        with open("/tmp/mut/results.jsonl", "a") as g:
            g.write(json.dumps(entry) + "\n")


main()
