"""Writes theories/Conform/Queries.v and theories/Conform/Matches.v: the tables of
/repo/codesearch/index/regexp_test.go and /repo/codesearch/regexp/regexp_test.go as Coq terms."""
import os, re, sys
sys.path.insert(0, os.path.dirname(os.path.abspath(__file__)))
from goregex import parse, coq

out = os.path.join(os.path.dirname(os.path.dirname(os.path.abspath(__file__))), "rocq/theories/Conform")
GO = r'`[^`]*`|"(?:[^"\\]|\\.)*"'
ESC = {"n": "\n", "t": "\t", "a": "\a", "f": "\f", "r": "\r", "v": "\v", "\\": "\\", '"': '"'}


def go_string(s):
    if s[0] == "`":
        return s[1:-1]
    return re.sub(r"\\(.)", lambda m: ESC[m.group(1)], s[1:-1])


def blist(s):
    return "[" + "; ".join(str(b) for b in s.encode()) + "]"


def comment(s):
    return "(* " + re.sub(r'[^ -~]', lambda m: "<%x>" % ord(m.group(0)), s).replace('"', "''").replace("(*", "( *").replace("*)", "* )") + " *)"


def table(path, name):
    t = open(path, encoding="utf-8").read()
    t = t[t.index("var %s = " % name):]
    t = t[t.index("}{") + 2:t.index("\n}\n")]
    return "\n".join(l for l in t.split("\n") if not l.strip().startswith("//"))


def main():
    os.makedirs(out, exist_ok=True)
    rows = re.findall(r"\{\s*(%s),\s*(%s)\}" % (GO, GO), table("/repo/codesearch/index/regexp_test.go", "queryTests"))
    with open(os.path.join(out, "Queries.v"), "w") as f:
        f.write("(** Written by tools/conform.py. The table queryTests, /repo/codesearch/index/regexp_test.go:12-83:\n"
                "    what regexp/syntax.Parse makes of the expression, and the query it is to give, as written by\n"
                "    Query.String. *)\n"
                "From Verif Require Import Model.Base Model.Syntax Model.GoRegexp.\nLocal Open Scope N_scope.\n\n"
                "Definition query_tests : list (gre * str) := [\n")
        f.write(";\n".join("  %s\n  (%s, %s)" % (comment(go_string(a) + "   " + go_string(b)), coq(parse(go_string(a))), blist(go_string(b))) for a, b in rows))
        f.write("\n].\n")
    print(len(rows), "queries")
    rows = re.findall(r"\{\s*(%s),\s*(%s),\s*(nil|\[\]int\{[0-9, ]*\}),?\s*\}" % (GO, GO), table("/repo/codesearch/regexp/regexp_test.go", "matchTests"))
    with open(os.path.join(out, "Matches.v"), "w") as f:
        f.write("(** Written by tools/conform.py. The table matchTests, /repo/codesearch/regexp/regexp_test.go:40-149:\n"
                "    what regexp/syntax.Parse makes of (?m) and the expression, the text, and the numbers of the lines to\n"
                "    be reported. *)\n"
                "From Verif Require Import Model.Base Model.Syntax Model.GoRegexp.\nLocal Open Scope N_scope.\n\n"
                "Definition match_tests : list (gre * bytes * list nat) := [\n")
        f.write(";\n".join("  %s\n  (%s, %s, [%s]%%nat)" % (comment(go_string(a) + "   " + go_string(b)), coq(parse("(?m)" + go_string(a))), blist(go_string(b)),
                                                       "; ".join(re.findall(r"\d+", m.split("{")[-1]))) for a, b, m in rows))
        f.write("\n].\n")
    print(len(rows), "matches")


main()
