#!/usr/bin/env python3
"""Write MANIFEST.json: theorem names are collected from Properties*.v, status and note from NOTES."""
import re, os, glob, json
root = os.path.join(os.path.dirname(os.path.abspath(__file__)), '..')
thms = {}
for p in sorted(glob.glob(os.path.join(root, 'rocq/theories/Properties*.v'))):
    for n in re.findall(r'^Theorem (C\d\d\w*)', open(p).read(), re.M):
        thms.setdefault(n[:3], []).append(n)
# property -> (status, note)
NOTES = {
 'C01': ('proved', ''),
 'C02': ('proved', ''),
 'C03': ('partial', 'False of the code: get(&[]) on shape [0] panics (witness proved). Holds on empty tensors for indices covering every dimension.'),
 'C04': ('proved', ''),
 'C05': ('proved', ''),
 'C06': ('partial', 'False of the code: iterating any tensor with a zero dimension panics (proved for all such tensors).'),
 'C07': ('proved', ''),
 'C08': ('proved', ''),
 'C11': ('proved', 'A range with end < start panics by subtraction overflow (debug arithmetic).'),
 'C12': ('proved', ''),
 'C13': ('partial', 'False of the code: TensorView::get unwraps and panics (witness). Exact behaviour proved.'),
 'C14': ('partial', 'False of the code: slicing a view slices the underlying tensor (witness and exact behaviour proved).'),
 'C15': ('partial', 'False of the code: reshape does not re-index (witness). Adding leading ones is proved correct.'),
 'C16': ('partial', 'False of the code for size-1 windows of larger dimensions (witness); holds otherwise, as proved.'),
 'C17': ('proved', ''),
 'C18': ('proved', ''),
 'C19': ('partial', 'False of the code (witness); proved that addition with any zero dimension always panics.'),
 'C20': ('proved', ''),
 'C21': ('proved', ''),
 'C22': ('proved', ''),
 'C23': ('partial', 'False of the code (witness); holds for whole-tensor windows.'),
 'C24': ('proved', ''),
 'C25': ('proved', ''),
 'C27': ('proved', ''),
 'C28': ('partial', 'False of the code: shape [1,1,n,k] gives only row 0 (witness); the exact behaviour for all ranks >= 4 is proved.'),
 'C29': ('proved', ''),
 'C30': ('partial', 'False of the code (witness); holds for whole-tensor windows; exact behaviour proved.'),
 'C51': ('proved', ''),
}
exec(open(os.path.join(root, 'tools/notes_more.py')).read()) if os.path.exists(os.path.join(root, 'tools/notes_more.py')) else None
claims = []
for c in sorted(thms):
    st, note = NOTES[c]
    d = {'property': c, 'status': st, 'theorems': thms[c]}
    if note: d['note'] = note
    claims.append(d)
json.dump({'claims': claims}, open(os.path.join(root, 'MANIFEST.json'), 'w'), indent=1)
props = [json.loads(l)['id'] for l in open(os.path.join(root, 'properties.jsonl'))]
print('missing:', [p for p in props if p not in thms])
