"""Asks coqc for Print Assumptions of every theorem in MANIFEST.json and writes ASSUMPTIONS.md.
Run after `make` in /verif/rocq."""
import json, os, re, subprocess, tempfile, collections
root = os.path.dirname(os.path.dirname(os.path.abspath(__file__)))
th = os.path.join(root, 'rocq', 'theories')
where = {}
for f in sorted(os.listdir(th)):
    if f.startswith('P_') and f.endswith('.v'):
        for t in re.findall(r'^Theorem (C\d+_\w+)', open(os.path.join(th, f)).read(), re.M):
            where.setdefault(f[:-2], []).append(t)
res = {}
for f, ts in where.items():
    src = 'From Verif Require %s.\n' % f
    for t in ts:
        src += 'Eval cbv in "@@%s"%%string.\n' % t if False else ''
        src += 'Check True.\nPrint Assumptions Verif.%s.%s.\n' % (f, t)
    d = tempfile.mkdtemp()
    p = os.path.join(d, 'q.v'); open(p, 'w').write(src)
    out = subprocess.run(['coqc', '-Q', th, 'Verif', p], capture_output=True, text=True)
    parts = out.stdout.split('True\n     : Prop\n')[1:]
    assert len(parts) == len(ts), (f, out.stderr)
    for t, o in zip(ts, parts):
        o = o.strip()
        if o.startswith('Closed'):
            res[t] = (f, [])
        else:
            ax = [l.split(' :')[0].strip() for l in o.splitlines()[1:] if re.match(r'^[A-Za-z_][\w.]* ?(:|$)', l)]
            res[t] = (f, ax)
lines = ['# `Print Assumptions` of every theorem', '',
         'Generated by `tools/mk_assumptions.py` from the compiled development.', '']
groups = collections.defaultdict(list)
for t, (f, ax) in res.items():
    groups[tuple(ax)].append((t, f))
for ax, ts in sorted(groups.items(), key=lambda x: len(x[0])):
    lines.append('## ' + ('Closed under the global context (no axioms)' if not ax else 'Axioms: ' + ', '.join('`%s`' % a for a in ax)))
    lines.append('')
    for t, f in sorted(ts, key=lambda x: int(re.match(r'C(\d+)', x[0]).group(1))):
        lines.append('* `%s` (%s.v)' % (t, f))
    lines.append('')
open(os.path.join(root, 'ASSUMPTIONS.md'), 'w').write('\n'.join(lines))
print(len(res), {', '.join(k): len(v) for k, v in groups.items()})
