#!/usr/bin/env python3
"""Generate rocq/theories/Tables.v from /repo/src/util/tables.cpp.

The numbers are copied verbatim; only the C++ syntax is turned into Gallina.
"""
import re, sys

path = sys.argv[1] if len(sys.argv) > 1 else '/repo/src/util/tables.cpp'
raw = open(path).read()
src = re.sub(r'//.*', lambda m: '', raw)

NAMES = ['kCellEdgeEndpoint', 'kCellEdgeDirection', 'kCellCornerOffset',
         'kEdgeProcCallTable', 'kEdgeProcChildTable', 'kEdgeProcSharedEdge',
         'kFaceProcCallTable', 'kFaceProcChildTable',
         'kMcVertexMaskToEdgeMask', 'kMcTriangleTable', 'kMdcEdgeSetIndex']

def conv(t, depth_max):
    if isinstance(t, list):
        return '[' + '; '.join(conv(x, depth_max) for x in t) + ']'
    return '(%d)' % t if t < 0 else str(t)

def depth(t):
    return 1 + depth(t[0]) if isinstance(t, list) else 0

out = ['(* Generated by tools/gen_tables.py from src/util/tables.cpp; do not edit. *)',
       'From Coq Require Import ZArith List.', 'Import ListNotations.',
       'Local Open Scope Z_scope.', '']
for n in NAMES:
    m = re.search(re.escape(n) + r'((?:\[\d+\])+)\s*=\s*(\{.*?\});', src, re.S)
    l0 = src[:m.start()].count('\n') + 1
    l1 = src[:m.end()].count('\n') + 1
    t = re.sub(r'0b([01]+)', lambda k: str(int(k.group(1), 2)), m.group(2))
    val = eval(t.replace('{', '[').replace('}', ']'))
    d = depth(val)
    ty = 'Z'
    for _ in range(d):
        ty = 'list (%s)' % ty if ty != 'Z' else 'list Z'
    out.append('(* src/util/tables.cpp:%d-%d *)' % (l0, l1))
    body = ';\n   '.join(conv(x, d) for x in val)
    out.append('Definition %s : %s :=\n  [%s].\n' % (n, ty, body))
open(sys.argv[2] if len(sys.argv) > 2 else '/verif/rocq/theories/Tables.v', 'w').write('\n'.join(out))

# The manifold table of DC_Octree::checkTopoSafety
dc = open('/repo/src/data/dc_octree.cpp').read()
m = re.search(r'isManifold\[256\]\s*=\s*\{(.*?)\};', dc, re.S)
vals = [x.strip() for x in m.group(1).replace('\n', ' ').split(',') if x.strip()]
assert len(vals) == 256 and set(vals) == {'true', 'false'}
l0 = dc[:m.start()].count('\n') + 1
l1 = dc[:m.end()].count('\n') + 1
rows = ['; '.join(vals[i:i + 16]) for i in range(0, 256, 16)]
open('/verif/rocq/theories/DcTables.v', 'w').write(
    '(* Generated by tools/gen_tables.py from src/data/dc_octree.cpp; do not edit. *)\n'
    'From Coq Require Import List.\nImport ListNotations.\n\n'
    '(* src/data/dc_octree.cpp:%d-%d *)\nDefinition isManifold : list bool :=\n  [%s].\n'
    % (l0, l1, ';\n   '.join(rows)))
