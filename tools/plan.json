{
 "C01": "induction over the recursion of `rb_recurse` (labels written lie in [offset, offset+k)), then through the best-of loop",
 "C02": "refinement: the cut counted by `part_of_labels` is the cut of `Spec.v`; overflow witness",
 "C03": "weakest preconditions for every function of the library: the set of possible failures is computed compositionally; witnesses for each failure; total success for every k from 2 to 8 under weight hypotheses",
 "C04": "refuted for every input (1/log2(1) is infinite)",
 "C05": "refuted for every input by computation of the guard",
 "C06": "invariant of the loop over the cuts",
 "C07": "case analysis of the argument checks; witnesses",
 "C08": "the result is shown equal for any two option records that differ in the balance fields",
 "C09": "fuel of every loop is shown sufficient; coarsening shrinks by the stopping criterion; float comparison through Flocq",
 "C10": "the invariant of C01 for an arbitrary bisector",
 "C11": "invariant over the parts; rounding bounds through Flocq",
 "C12": "refinement of the extractor",
 "C13": "refinement of the extractor (adjacency lists equal up to renaming)",
 "C14": "refinement of mapPartitioning",
 "C15": "refinement of `contract`",
 "C16": "refinement of `contract` through the one-step builder invariant",
 "C17": "refinement of `contract`",
 "C18": "double-sum identity",
 "C19": "equality with the connectivity rebuilt from scratch",
 "C20": "invariant over the visit order",
 "C21": "invariant over the visit order; witnesses for the sentinel",
 "C22": "invariant: an unmatched visited vertex has no admissible unmatched neighbour",
 "C23": "maximum over the scanned neighbours",
 "C24": "counting sort lemma",
 "C25": "induction over histories",
 "C26": "refinement",
 "C27": "refinement",
 "C28": "induction over move histories",
 "C29": "induction over move histories",
 "C30": "invariant of the FM pass and of the undo loop",
 "C31": "the undo point minimises the (imbalance, cut) order; floats ordered axiom-free",
 "C32": "case analysis of the guard",
 "C33": "invariant of BFS growth",
 "C34": "relative loads as integers; witnesses",
 "C35": "minimum over the candidates; separation of balanced from unbalanced for equal targets",
 "C36": "Flocq rounding bounds",
 "C37": "Flocq error bound of the float sum",
 "C38": "Flocq comparison made exact",
 "C39": "loop invariant",
 "C40": "induction over builder histories",
 "C41": "induction over builder histories",
 "C42": "loop invariants of the three nested loops; symmetry of the offsets",
 "C43": "case analysis",
 "C44": "refinement to a set",
 "C45": "refinement to a map of sums",
 "C46": "refinement to the maximum",
 "C47": "invariants of the fill and swap phases",
 "C48": "weakest precondition over any components, induction over levels",
 "C49": "soundness and completeness of the check",
 "C50": "induction over levels",
 "C51": "order chained through the levels (`no_worse` is a preorder, projection preserves both components)",
 "C52": "composition of C47, C30, C31",
 "C53": "inductive `tree` relation, counted and summed",
 "C54": "simulation between the run with the array and the run without it",
 "C55": "invariant over hierarchies",
 "C56": "overshoot bounded by one vertex; carried through refinement",
 "C57": "no coarsening below twenty vertices; induction over the recursion; exact halves",
 "C58": "overshoot per bisection bounded by one coarse vertex; summed over the levels of the tree",
 "C59": "induction over call histories, refinement to a list of pairs",
 "C60": "induction over call histories",
 "C61": "geometric decrease from the edge-ratio criterion made exact (C38), summed over the levels",
 "C62": "lower bound = total minus the upper bounds of C56 and C58",
 "C63": "simulation: the timed program (its own monad: clock readings and time keeper) against the plain one, with a log of reports; reports counted by induction",
 "C64": "equation between programs: merging best results commutes with the loop",
 "C65": "bit-level invariant of mt19937; induction over call histories on a heap of engines",
 "C66": "invariant: the key of a queued vertex is the weight of its edges from the region; induction over the growth",
 "C67": "refinement: each step of the model's loop is a step of a queue-free specification of a pass",
 "C68": "induction over the levels: each level of the model is a level of a relational specification without streams and data structures",
 "C69": "the tree of bisections of C53 mapped to a relational specification whose nodes are those of C68",
 "C70": "the array of partners is shown to stand for a list of pairs; induction over the visited prefix of the order",
 "C71": "the computed fractions lie near h/k; every state refinement accepts has an imbalance at most that of the grown bisection or of the limits; the excess of a side over its parts' targets grows by at most W per level of the tree",
 "C72": "from the relational description of refinement (C67): a kept state has a smaller cut, a pass that keeps nothing started with a move of largest gain that was refused",
 "C73": "relational (two-run) logic: every component run on a graph and on its multiple makes the same choices and ends in related states; queues and gains scale, unit-weight flags are the only place where the scale is visible",
 "C74": "the double computations as correctly rounded real operations (Flocq), relative error of the reciprocal, then of the product",
 "C75": "composition of the grid theorem (C42) with those about the call; connectivity of the grid by induction over the coordinates",
 "C76": "case analysis on the options, the number of parts and the outcome, composing the theorems about each",
 "C77": "composition of the theorems about the call for two parts, translated to the caller's arrays by counting",
 "C78": "composition of the theorems about the call for up to eight parts, translated to the caller's arrays by exchanging sums"
}