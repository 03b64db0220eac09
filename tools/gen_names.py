#!/usr/bin/env python3
# Generates rocq/theories/Ids.v and rocq/theories/NameTables.v from /repo/src/names.rs.
import re, os
src = open("/repo/src/names.rs").read()
lines = src.split("\n")
here = os.path.dirname(os.path.abspath(__file__))
out = os.path.join(here, "..", "rocq", "theories")

def lineno(needle):
    for i, l in enumerate(lines):
        if needle in l: return i + 1
def enum(name):
    m = re.search(r"pub enum %s \{(.*?)\}" % name, src, re.S)
    return [x.strip() for x in m.group(1).split(",") if x.strip()], lineno("pub enum %s {" % name)
def table(name):
    m = re.search(r"static %s: .*?key: (\d+),\s*disps: &\[(.*?)\],\s*entries: &\[(.*?)\],\s*\};" % name, src, re.S)
    disps = re.findall(r"\((\d+), (\d+)\)", m.group(2))
    ents = re.findall(r'\("([^"]*)", \w+::(\w+)\)', m.group(3))
    return m.group(1), disps, ents, lineno("static %s:" % name)

ids = open(os.path.join(out, "Ids.v"), "w")
ids.write("(* Generated by tools/gen_names.py from /repo/src/names.rs.  Do not edit. *)\n"
          "From Coq Require Import List NArith.\nImport ListNotations.\n\n")
for rust, ty, pre in (("ElementId", "eid", "E"), ("AttributeId", "aid", "A")):
    vs, ln = enum(rust)
    ids.write("(* enum %s, names.rs:%d-%d, in declaration order. *)\n" % (rust, ln, ln + len(vs) + 1))
    ids.write("Inductive %s :=\n" % ty + "\n".join("| %s_%s" % (pre, v) for v in vs) + ".\n\n")
    ids.write("(* The discriminant, `id as usize`. *)\nDefinition %s_idx (x : %s) : N :=\n  match x with\n" % (ty, ty))
    ids.write("\n".join("  | %s_%s => %d" % (pre, v, i) for i, v in enumerate(vs)) + "\n  end%N.\n\n")
    ids.write("Definition all_%ss : list %s :=\n  [%s].\n\n" % (ty, ty, ";\n   ".join("%s_%s" % (pre, v) for v in vs)))
    ids.write("(* derive(PartialEq) of %s, names.rs:%d: equality of discriminants. *)\n" % (rust, ln - 2))
    ids.write("Definition %s_eqb (a b : %s) : bool := N.eqb (%s_idx a) (%s_idx b).\n\n" % (ty, ty, ty, ty))
ids.close()

t = open(os.path.join(out, "NameTables.v"), "w")
t.write("(* Generated by tools/gen_names.py from /repo/src/names.rs.  Do not edit. *)\n"
        "From Coq Require Import List NArith String.\nFrom Verif Require Import Base Ids.\nImport ListNotations.\nOpen Scope string_scope.\n\n")
for name, pre, ty in (("ELEMENTS", "E", "eid"), ("ATTRIBUTES", "A", "aid")):
    key, disps, ents, ln = table(name)
    end = ln + 4 + len(disps) + len(ents) + 2
    low = name.lower()
    t.write("(* static %s, names.rs:%d-%d. *)\n" % (name, ln, end))
    t.write("Definition %s_key : N := %s%%N.\n\n" % (low, key))
    t.write("Definition %s_disps : list (N * N) :=\n  [%s]%%N.\n\n" % (low, ";\n   ".join("(%s, %s)" % d for d in disps)))
    t.write("Definition %s_entries : list (str * %s) :=\n  [%s].\n\n" % (low, ty, ";\n   ".join('(lit "%s", %s_%s)' % (s, pre, v) for s, v in ents)))
t.close()
