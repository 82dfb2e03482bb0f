#!/usr/bin/env python3
"""Regenerate section 5 of DESIGN.md from the Print Assumptions output of rocq/theories/Prop*.v (which must have been compiled)."""
import re, glob, os, subprocess, sys, tempfile
root = os.path.dirname(os.path.dirname(os.path.abspath(__file__)))
short = {'classic': 'C', 'functional_extensionality_dep': 'F', 'sig_forall_dec': 'S', 'sig_not_dec': 'N'}
preds = ['quad_exact', 'odeint_exact', 'odeint_shape', 'complete_schedule', 'response_ok', 'noise_curve', 'proper_noise', 'exact_curve', 'finite_bessel',
         'circular_powers', 'good_source', 'lum_table', 'computable', 'units_parse', 'lists_attributes', 'tabulates', 'same_world', 'world_ready']
cache = sys.argv[1] if len(sys.argv) > 1 else None
rows = {}
for f in sorted(glob.glob(root + '/rocq/theories/Prop*.v')):
    b = os.path.basename(f)[:-2]; src = open(f).read()
    names = re.findall(r'^Print Assumptions (\w+)\.', src, re.M)
    if cache: out = open('%s/%s.out' % (cache, b)).read()
    else: out = subprocess.run(['coqc', '-Q', 'theories', 'Verif', f, '-o', tempfile.mkdtemp() + '/%s.vo' % b], cwd=root + '/rocq', capture_output=True, text=True).stdout
    blocks = re.split(r'^(?=Axioms:|Closed under)', out, flags=re.M)[1:]
    assert len(blocks) == len(names), b
    for n, bl in zip(names, blocks):
        ax = sorted(short[x.split('.')[-1]] for x in re.findall(r'^([\w.]+)\s*(?::|$)', bl, re.M) if not x.startswith(('Axioms', 'Closed')))
        i = src.index('Theorem ' + n); st = src[i:src.index('Proof', i)]
        hyp = [p for p in preds if re.search(r'\b%s\b' % p, st)]
        rows.setdefault(n.split('_')[0], []).append((n, b, ''.join(ax) or '-', ', '.join(hyp)))
text = ['| theorem | file | axioms | assumed of external routines |', '|---|---|---|---|']
for k in sorted(rows, key=lambda x: int(x[1:])):
    text += ['| `%s` | %s | %s | %s |' % r for r in rows[k]]
d = open(root + '/DESIGN.md').read()
a, z = '<!-- assumptions -->\n', '<!-- end assumptions -->\n'
i, j = d.index(a) + len(a), d.index(z)
open(root + '/DESIGN.md', 'w').write(d[:i] + '\n'.join(text) + '\n' + d[j:])
print(len(text) - 2, 'theorems')
