#!/usr/bin/env python3
"""Writes rocq/theories/ModelReprFiles.v from the text of the source tree.

Reads (as text, with ast and json) the constructors of the classes of haiku/_src, the calls of
integration/descriptors.py and the lines "module" of integration/checkpoints/*.json.
Usage: gen_reprs.py /repo > rocq/theories/ModelReprFiles.v
"""
import ast, glob, json, os, sys

root = sys.argv[1]
src = os.path.join(root, "haiku/_src")


def s(x):
    return '"' + x.replace('"', '""') + '"'


def lst(l):
    return "[" + "; ".join(l) + "]"


def value(node, text):
    if isinstance(node, ast.Constant):
        v = node.value
        if v is None:
            return "VNone"
        if isinstance(v, bool):
            return "VBool true" if v else "VBool false"
        if isinstance(v, int):
            return "VInt %d" % v
        if isinstance(v, float):
            r = repr(v)
            if "e" in r:
                return "VOther " + s(r)
            a, b = r.split(".")
            return 'VFloat false %s%%N "%s"' % (a, b)
        if isinstance(v, str):
            return "VStr " + s(v)
    if isinstance(node, ast.UnaryOp) and isinstance(node.op, ast.USub) and isinstance(node.operand, ast.Constant) and isinstance(node.operand.value, int):
        return "VInt (-%d)" % node.operand.value
    if isinstance(node, ast.List):
        return "VList " + lst([value(e, text) for e in node.elts])
    if isinstance(node, ast.Tuple):
        return "VTuple " + lst([value(e, text) for e in node.elts])
    if isinstance(node, ast.Call):
        name = ast.get_source_segment(text, node.func).split(".")[-1]
        if name[0].isupper() and not node.args and not node.keywords:
            return "VModule %s []" % s(name)
    return "VOther " + s(" ".join(ast.get_source_segment(text, node).split()))


classes = {}
files = [f for f in sorted(glob.glob(src + "/*.py") + glob.glob(src + "/nets/*.py")) if not f.endswith("_test.py")]
files.append(src + "/integration/descriptors.py")
for f in files:
    text = open(f).read()
    for node in ast.parse(text).body:
        if isinstance(node, ast.ClassDef):
            init = [m for m in node.body if isinstance(m, ast.FunctionDef) and m.name == "__init__"]
            bases = [ast.get_source_segment(text, b).split(".")[-1] for b in node.bases]
            classes[node.name] = (init[0] if init else None, bases, text, os.path.relpath(f, root))


def ctor(name):
    init, bases, text, f = classes[name]
    if init is None:
        for b in bases:
            if b in classes:
                return ctor(b)
    return init, text, f


tree_text = open(src + "/integration/descriptors.py").read()
tree = ast.parse(tree_text)
wrappers = {"Training", "MultiInput", "ResetCoreAdapter"}
descriptors = []
for node in tree.body:
    if isinstance(node, ast.Assign) and isinstance(node.value, ast.Tuple) and node.targets[0].id in ("OPTIONAL_BATCH_MODULES", "BATCH_MODULES", "RNN_CORES"):
        for d in node.value.elts:
            kw = {k.arg: k.value for k in d.keywords}
            call = kw["create"].body
            while ast.get_source_segment(tree_text, call.func) in wrappers:
                call = call.args[0]
            name = kw["name"].value
            cls = ast.get_source_segment(tree_text, call.func).split(".")[-1]
            args = [value(a, tree_text) for a in call.args]
            kwargs = [(k.arg, value(k.value, tree_text)) for k in call.keywords]
            names = [name] if node.targets[0].id != "RNN_CORES" else ["Recurrent-%s-%s" % (name, u) for u in ("dynamic_unroll", "static_unroll")]
            for n in names:
                descriptors.append((n, cls, args, kwargs, call.lineno))

print('''(** The constructors of the classes in integration/descriptors.py, the calls made there (without the wrappers that [unwrap] removes) and the
    line "module" of the files integration/checkpoints/*.json; transcribed by tools/gen_reprs.py. *)
From Coq Require Import String ZArith NArith List.
From Verif Require Import ModelUtils ModelRepr.
Import ListNotations.
Local Open Scope string_scope.
Local Open Scope Z_scope.

(** [inspect.getfullargspec(cls.__init__)] of each class; a default that is neither a number, a string nor a sequence of them is given by
    its source text. *)
Definition signatures : list (string * signature value) :=
 [''')
out = []
for cls in sorted({d[1] for d in descriptors}):
    init, text, f = ctor(cls)
    a = init.args
    names = [x.arg for x in a.args][1:]
    defaults = [value(d, text) for d in a.defaults]
    kwonly = ["(%s, %s)" % (s(x.arg), "None" if d is None else "Some (%s)" % value(d, text)) for x, d in zip(a.kwonlyargs, a.kw_defaults)]
    out.append("  (** %s:%d-%d *)\n  (%s, Sig %s %s %s %s %s)" % (
        f, init.lineno, init.body[0].lineno - 1, s(cls), lst([s(n) for n in names]), lst(defaults),
        "true" if a.vararg else "false", lst(kwonly), "true" if a.kwarg else "false"))
print(";\n".join(out) + "].\n")
print("(** integration/descriptors.py: file name, class, positional and keyword arguments. *)")
print("Definition descriptor_calls : list (string * (string * list value * list (string * value))) :=\n [")
print(";\n".join("  (** line %d *) (%s, (%s, %s, %s))" % (l, s(n), s(c), lst(a), lst(["(%s, %s)" % (s(k), v) for k, v in kw])) for n, c, a, kw, l in sorted(descriptors)) + "].\n")
print("Definition module_lines : list (string * list string) :=\n [")
rows = []
for f in sorted(glob.glob(src + "/integration/checkpoints/*.json")):
    rows.append("  (%s, %s)" % (s(os.path.basename(f)[:-5]), lst([s(x) for x in json.load(open(f))["module"]])))
print(";\n".join(sorted(rows)) + "].")
