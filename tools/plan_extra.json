{
 "C59": "induction over call histories, refinement to a list of pairs",
 "C60": "induction over call histories",
 "C61": "geometric decrease from the edge-ratio criterion made exact (C38), summed over the levels",
 "C62": "lower bound = total minus the upper bounds of C56 and C58",
 "C63": "simulation: the timed program (its own monad: clock readings and time keeper) against the plain one, with a log of reports; reports counted by induction",
 "C64": "equation between programs: merging best results commutes with the loop",
 "C65": "bit-level invariant of mt19937; induction over call histories on a heap of engines",
 "C66": "invariant: the key of a queued vertex is the weight of its edges from the region; induction over the growth",
 "C67": "refinement: each step of the model's loop is a step of a queue-free specification of a pass",
 "C68": "induction over the levels: each level of the model is a level of a relational specification without streams and data structures",
 "C69": "the tree of bisections of C53 mapped to a relational specification whose nodes are those of C68",
 "C70": "the array of partners is shown to stand for a list of pairs; induction over the visited prefix of the order",
 "C71": "the computed fractions lie near h/k; every state refinement accepts has an imbalance at most that of the grown bisection or of the limits; the excess of a side over its parts' targets grows by at most W per level of the tree",
 "C72": "from the relational description of refinement (C67): a kept state has a smaller cut, a pass that keeps nothing started with a move of largest gain that was refused",
 "C73": "relational (two-run) logic: every component run on a graph and on its multiple makes the same choices and ends in related states; queues and gains scale, unit-weight flags are the only place where the scale is visible",
 "C74": "the double computations as correctly rounded real operations (Flocq), relative error of the reciprocal, then of the product",
 "C75": "composition of the grid theorem (C42) with those about the call; connectivity of the grid by induction over the coordinates",
 "C76": "case analysis on the options, the number of parts and the outcome, composing the theorems about each",
 "C77": "composition of the theorems about the call for two parts, translated to the caller's arrays by counting",
 "C78": "composition of the theorems about the call for up to eight parts, translated to the caller's arrays by exchanging sums"
}