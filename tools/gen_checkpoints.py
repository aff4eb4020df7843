"""Writes rocq/theories/ModelCheckpoints.v: the files haiku/_src/integration/checkpoints/*.json of the repository as Coq data."""
import json, os, sys
src = sys.argv[1]
names = sorted(os.listdir(src))
def leaves(tree):
  return [((m, n), v) for m, b in tree.items() for n, v in b.items()]
def q(s): return '"' + s.replace('"', '""') + '"'
def tree(j, kind, key):
  if key not in j: return "None"
  l = leaves(j[key])
  assert l == sorted(l, key=lambda p: p[0]), (kind, key)
  return ("(Some (Tree %d %d\n    [" % (j[kind + "_size"], j[kind + "_bytes"])
          + ";\n     ".join("((%s, %s), %s)" % (q(m), q(n), q(v)) for (m, n), v in l) + "]))")
out = ["(** The files integration/checkpoints/*.json, transcribed by tools/gen_checkpoints.py in the order of their names, without the line \"module\" (a module's [str]). *)",
       "From Coq Require Import String ZArith List.", "From Verif Require Import ModelFormat.", "Import ListNotations.",
       "Local Open Scope string_scope.", "Local Open Scope Z_scope.", "",
       "Definition checkpoint_files : list (string * summary) :=", " ["]
items = []
for f in names:
  j = json.load(open(os.path.join(src, f)))
  assert set(j) <= {"module", "input", "param_size", "param_bytes", "params", "state_size", "state_bytes", "state"}
  items.append("(%s, Summary %s\n   %s\n   %s)" % (q(f[:-5]), q(j["input"]), tree(j, "param", "params"), tree(j, "state", "state")))
out.append(";\n  ".join(items) + "].")
print("\n".join(out))
