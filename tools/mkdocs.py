#!/usr/bin/env python3
"""Write Proofs/RepoDocuments.v, the input documents of /repo/test and
/repo/benchmarks as terms of the model's type of documents, and
Proofs/SampleDocuments.v, those of tools/docs. Namespace
attributes of the root, comments and blank text are left out, as pugixml and
Xerces do."""
import os, re, xml.etree.ElementTree as ET

PROOFS = "/verif/rocq/theories/Proofs/"
FILES = [("RepoDocuments.v", ["/repo/test", "/repo/benchmarks"],
          "The input documents of test/ and benchmarks/ in /repo, written by\n    tools/mkdocs.py."),
         ("SampleDocuments.v", ["/verif/tools/docs"],
          "The documents of tools/docs, written by tools/mkdocs.py.")]

def q(s):
    return '"' + s.replace('"', '""') + '"'

def term(e, ind):
    attrs = "; ".join("(%s, %s)" % (q(k), q(v)) for k, v in e.attrib.items()
                      if not k.startswith("{"))
    kids = list(e)
    text = "" if e.text is None or not e.text.strip() else e.text
    pad = " " * ind
    inner = (";\n" + pad + "  ").join(term(k, ind + 2) for k in kids)
    body = "[" + ("\n" + pad + "  " + inner if kids else "") + "]"
    return "Elem %s [%s] %s %s" % (q(e.tag), attrs, body, q(text))

def main(name_out, dirs, title):
    out = ["(** %s *)" % title,
           "From Coq Require Import String List.",
           "From Verif Require Import Model.Xml.",
           "Import ListNotations.",
           "Local Open Scope string_scope.", ""]
    names = []
    for d in dirs:
        for f in sorted(os.listdir(d)):
            if not f.endswith(".xml"):
                continue
            root = ET.parse(os.path.join(d, f)).getroot()
            name = "doc_" + re.sub(r"\W", "_", f[:-4])
            names.append((f, name))
            out += ["(** %s/%s *)" % (os.path.basename(d), f),
                    "Definition %s : xml :=" % name, "  " + term(root, 2) + ".", ""]
    open(PROOFS + name_out, "w").write("\n".join(out))
    print(names)

for f in FILES:
    main(*f)
