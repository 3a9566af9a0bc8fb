# Regenerates DESIGN.md from design_head.md, properties.jsonl, MANIFEST.json, design_how.json and
# design_assumptions.json (the output of Print Assumptions for each theorem).
import json
V='/verif/'
how=json.load(open(V+'design_how.json'))
man={c['property']:c for c in json.load(open(V+'MANIFEST.json'))['claims']}
ass=json.load(open(V+'design_assumptions.json'))
short={'ClassicalDedekindReals.sig_forall_dec':'F','ClassicalDedekindReals.sig_not_dec':'N',
 'FunctionalExtensionality.functional_extensionality_dep':'X','Classical_Prop.classic':'C',
 'ClassicalEpsilon.constructive_indefinite_description':'E'}
out=[open(V+'design_head.md').read().rstrip(),'','## 5. Plan and result per property','',
 'Each entry: the property, what is modelled and how it is proved, the theorems with their axioms',
 '(letters of section 2; `-` means "Closed under the global context").','']
for l in open(V+'properties.jsonl'):
    p=json.loads(l); i=p['id']; c=man[i]
    out.append('### %s %s (%s)'%(i,p['title'],c['status']))
    out.append('')
    out.append(how.get(i,'(see the comments in the theory files)'))
    if p.get('unguarded_claim_refuted'): out.append('Refuted stronger wording: '+p['unguarded_claim_refuted'])
    out.append('')
    for t in c['theorems']:
        m,a=ass.get(t,('?',None))
        out.append('- `%s` (%s.v): %s'%(t,m,'-' if a==[] else '?' if a is None else ''.join(short[x] for x in a)))
    out.append('')
open(V+'DESIGN.md','w').write('\n'.join(out))
