import json,re,os
props=[json.loads(l) for l in open('/verif/properties.jsonl')]
man={c['property']:c for c in json.load(open('/verif/MANIFEST.json'))['claims']}
plan={
'C01':'induction over the recursion of `rb_recurse` (labels written lie in [offset, offset+k)), then through the best-of loop',
'C02':'refinement: the cut counted by `part_of_labels` is the cut of `Spec.v`; overflow witness',
'C03':'weakest preconditions for every function of the library: the set of possible failures is computed compositionally; witnesses for each failure; total success for every k from 2 to 8 under weight hypotheses',
'C04':'refuted for every input (1/log2(1) is infinite)',
'C05':'refuted for every input by computation of the guard',
'C06':'invariant of the loop over the cuts',
'C07':'case analysis of the argument checks; witnesses',
'C08':'the result is shown equal for any two option records that differ in the balance fields',
'C09':'fuel of every loop is shown sufficient; coarsening shrinks by the stopping criterion; float comparison through Flocq',
'C10':'the invariant of C01 for an arbitrary bisector',
'C11':'invariant over the parts; rounding bounds through Flocq','C12':'refinement of the extractor','C13':'refinement of the extractor (adjacency lists equal up to renaming)','C14':'refinement of mapPartitioning',
'C15':'refinement of `contract`','C16':'refinement of `contract` through the one-step builder invariant','C17':'refinement of `contract`','C18':'double-sum identity','C19':'equality with the connectivity rebuilt from scratch',
'C20':'invariant over the visit order','C21':'invariant over the visit order; witnesses for the sentinel','C22':'invariant: an unmatched visited vertex has no admissible unmatched neighbour','C23':'maximum over the scanned neighbours','C24':'counting sort lemma',
'C25':'induction over histories','C26':'refinement','C27':'refinement','C28':'induction over move histories','C29':'induction over move histories','C30':'invariant of the FM pass and of the undo loop','C31':'the undo point minimises the (imbalance, cut) order; floats ordered axiom-free','C32':'case analysis of the guard',
'C33':'invariant of BFS growth','C34':'relative loads as integers; witnesses','C35':'minimum over the candidates; separation of balanced from unbalanced for equal targets','C36':'Flocq rounding bounds','C37':'Flocq error bound of the float sum','C38':'Flocq comparison made exact','C39':'loop invariant','C40':'induction over builder histories','C41':'induction over builder histories','C42':'loop invariants of the three nested loops; symmetry of the offsets','C43':'case analysis','C44':'refinement to a set','C45':'refinement to a map of sums','C46':'refinement to the maximum','C47':'invariants of the fill and swap phases','C48':'weakest precondition over any components, induction over levels','C49':'soundness and completeness of the check','C50':'induction over levels',
'C51':'order chained through the levels (`no_worse` is a preorder, projection preserves both components)','C52':'composition of C47, C30, C31','C53':'inductive `tree` relation, counted and summed','C54':'simulation between the run with the array and the run without it','C55':'invariant over hierarchies','C56':'overshoot bounded by one vertex; carried through refinement','C57':'no coarsening below twenty vertices; induction over the recursion; exact halves','C58':'overshoot per bisection bounded by one coarse vertex; summed over the levels of the tree',
}
extra=json.load(open('/verif/tools/plan_extra.json')) if os.path.exists('/verif/tools/plan_extra.json') else {}
plan.update(extra)
rows=[]
for p in props:
    c=man[p['id']]
    th=', '.join('`%s`'%t for t in c['theorems'])
    rows.append(f"| {p['id']} | {p['title']} | {plan.get(p['id'],'?')} | {c['status']}: {th} |")
t=open('/verif/tools/design_head.md').read()
open('/verif/DESIGN.md','w').write(t.replace('@@ROWS@@','\n'.join(rows)))
json.dump(plan,open('/verif/tools/plan.json','w'),indent=1)
