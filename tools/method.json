{
 "C01": "invariant of the cursor, induction over query lists, against a cursor-free specification",
 "C02": "case analysis on the segment containing the time",
 "C03": "case analysis on the object state",
 "C04": "induction over lines",
 "C05": "induction over lines",
 "C06": "invariant over interleavings of queries and re-reads",
 "C07": "ring identities",
 "C08": "trigonometry",
 "C09": "real analysis of the densities",
 "C10": "lane-wise comparison",
 "C11": "linear arithmetic over the frames",
 "C12": "induction over lines",
 "C13": "induction over legs and boxes, fuel for the loop",
 "C14": "permutation and sortedness of any sort",
 "C15": "invariant over the passes of the loop",
 "C16": "invariant over temperature histories; Flocq error bounds",
 "C17": "case analysis, continuity; Flocq",
 "C18": "induction over table rows",
 "C19": "algebra of weighted means",
 "C20": "sums over quadrature points",
 "C21": "factorisation of T^4 differences",
 "C22": "case analysis on the phase",
 "C23": "quadratic forms",
 "C24": "case analysis in the order of the checks",
 "C25": "induction over ids",
 "C26": "arithmetic of div and mod; rounding of the quotient",
 "C27": "characterisation of file names",
 "C28": "induction over the stream of draws",
 "C29": "maxima over the members",
 "C30": "induction over passes and cells",
 "C31": "induction over lines",
 "C32": "invariant of the frame cursor; binary64 comparisons",
 "C33": "polynomial inequalities",
 "C34": "sums of squares, sparsity pattern invariants",
 "C35": "sums over indices",
 "C36": "list algebra",
 "C37": "well-founded descent; Flocq for binary64",
 "C38": "invariant over passes",
 "C39": "bisimulation of the loop after restart",
 "C40": "invariant over file histories",
 "C41": "list induction over cells and nodes",
 "C42": "pack/unpack inversion over owners",
 "C43": "invariant over steps",
 "C44": "tensor algebra over R",
 "C45": "pack/unpack inversion",
 "C46": "refinement to single-cell histories",
 "C47": "quadratic forms over sums",
 "C48": "algebra of invariants of tensors",
 "C49": "minimisation over lists; order embedding of binary64",
 "C50": "induction over call histories",
 "C51": "induction over bytes; exactness of single precision decoding",
 "C52": "vector geometry over R, fold invariants, slab argument for boxes",
 "C53": "list filters",
 "C54": "induction over fields and lines",
 "C55": "induction over nodes and observations",
 "C56": "linear algebra over sums",
 "C57": "list updates",
 "C58": "flag algebra; sampling argument",
 "C59": "sums over quadrature points",
 "C60": "fold over cells, last writer",
 "C61": "convexity and distance minimisation",
 "C62": "order arguments",
 "C63": "names are split at their last dot; path resolution by induction",
 "C64": "loop invariants",
 "C65": "folds over the tree as maxima; pointwise characterisation of the loops",
 "C66": "case analysis of main over the validation theorem",
 "C67": "weak form: the scalar product of the loops over cells and faces with any test vector is a sum over quadrature points; test field one",
 "C68": "weak form with the temperature itself, a constant or another temperature as test field",
 "C69": "weak form of the faces; flags",
 "C70": "linear functionals of the unrolled schemes; ring identities",
 "C71": "weak form with the hat function of a node, on host and device",
 "C72": "assembly as a sum of element contributions (the bilinear form of virtual work tested with every field), residual of the accepted iterate, Cauchy-Schwarz; positive definiteness point by point",
 "C73": "induction over the loads: the strain increments telescope; the return mapping of C44 at every point; work of the stress summed over the points",
 "C74": "refinement: the run on databases (ptree put and get) against a run without databases, by a simulation relation kept by every pass; frame lemma of ptree put for the entries a member does not read; physics and analysis are arbitrary functions",
 "C75": "volume integrals (Coquelicot Riemann integrals) of the density in cylindrical coordinates, substitution and antiderivatives; the truncated Gaussian bounded by its alternating Taylor polynomials and PI by Machin's formula",
 "C76": "induction over the axes and over the layers of cells (which layer holds a point, which layers have their centre below a height); reading of the property tree entry by entry",
 "C77": "summation by parts of the power modifier into thresholds, each of which is crossed in one time step (induction over the steps); invariant of the cursor of the scan path along the stages; C67 and C75 for the heat of every stage",
 "C78": "the rates are a symmetric nonnegative form; moments of the form on the interval below the limit, with sum-of-squares certificates for the stability polynomials; induction over the steps; Gershgorin rows, Jensen at hanging nodes, modes of the box elements",
 "C79": "the step is a nonnegative combination of powers of a nonnegative substochastic matrix; induction over the steps; the entries of the element matrices from the polarised modes of the box elements",
 "C80": "the update of a member is affine in its innovation: averages and deviations of the exact solutions solve the averaged systems; polarisation of the sample covariance; positive definite elimination for solvability",
 "C81": "induction over the rows of the factorisation with the elimination of the last row for positivity; uniqueness column by column; linearity of the perturbations in the draws and the variance identity of C80",
 "C82": "the flux compared with linear fluxes towards the two extremes (factorisation of T^4 - Tr^4), then the nonpositive off-diagonal entries; at the corners of a box the derivatives are differences along edges, and the sides of a box weigh at most 6/h of its nodal masses; induction over the steps",
 "C83": "the rate is that without beams plus the heat that the beams deliver to the node over its mass, which is between 0 and the largest rate of heating because shape functions at the points are not negative; C82 for the rest; induction over the steps with growing extremes",
 "C84": "the loops are folds over the visits in their order; all writes to an entry write the same value, because a lane holds one cell; the cells with material are a strictly increasing list, so the counters of the two loops agree; the places of the device are disjoint and bounded by the number of owned cells",
 "C85": "compress over the processes of the sums over their cells is the sum over all cells (permutation), reading needs only known entries; a step preserves every relation that the vector operations and the rates preserve; a renumbering preserves nodal values, fields, gradients, the weak form and the lumped mass",
 "C86": "the weak form of a profile is a constant flux tested with hat functions, which the divergence theorem turns into the boundary integral; for boxes the theorem holds box by box and sides facing each other cancel; induction over stages and steps",
 "C87": "projection onto the span of the columns of the (semi-definite) matrix: what is left is a displacement without strain on which the load does no work, so it is zero; a box held at one side: the strain at two points along each edge determines a rigid motion; the residual cannot fall below the work on a rigid displacement",
 "C88": "outcome Ok / exception / undefined of the loaders, characterised by induction over the lines: undefined iff the reading of the columns runs out before one that is not a number",
 "C89": "Uses EnergyModel and HeatModel over the reals.  PlacementSpec defines the motion and what it does to meshes, laws, paths and beams.  The path position commutes with affine maps, beams only see distances to the axis and height differences, the conductivity tensor is carried along (orthogonality), so submitted vectors turn with the gradients and all integrals agree; then induction over stages and steps with a relation between the states of the beams (after the end of its path a beam has no power and no position).  Five-axis paths by a counterexample.",
 "C90": "Uses EnergyModel and HeatModel over the reals.  SuperpositionSpec says what combined scenarios are.  The weak form is linear in the temperature together with the densities of the beams and the surroundings, so rates of combinations are combinations of rates, then induction over stages and steps.  For the beams that the code moves: the state of each beam does not depend on the others, and a beam whose power is not negative heats nothing while it is off, so the switch that leaves all beams out changes nothing.  Degrees: the scenario of one degree everywhere stays uniform.  Radiation by a counterexample.",
 "C91": "Uses HeatModel over the reals with Coquelicot's derivatives and limits.  ConvergenceSpec says what a solution of the equations is.  The rate is an affine function of the temperatures (superposition applied to the unit vectors); each scheme's step is the Taylor polynomial of its order in the matrix, by the tableaus of C70; local errors by the Taylor-Lagrange theorem with all derivatives of the solution bounded on [0,T], stability by the Lipschitz constant of the step, then induction over the steps.  Existence by the power series of the solution, uniqueness from convergence of forward Euler.",
 "C92": "ParallelElasticModel runs ElasticModel on each process with the flag of the cells it owns and adds what they assemble.  ParallelElasticSpec says what sharing cells, flags, temperatures and stress variables means.  Sums over own cells of all processes are sums over all cells; the position of a flag among the own flags by induction over the cells; then the displacement is the same since the solver uses products with the matrix only, the stress by the pointwise description of the update, and induction over the solves.",
 "C93": "HeatModel and EnergyModel; ComparisonSpec says what heated more means.  The difference of the weak forms of both runs at a node is at least minus the exchange of the difference of the temperatures with the largest loss coefficients (fourth powers are monotone and their slope is bounded), so a step does not make the difference negative if it takes from no node more than it has (sink of C82); then induction over the steps; for beams over the evaluations of the run with C90's decomposition of the driven sources.  For other schemes the difference of the runs is a run without heat in surroundings of 0 K (C90), which stays between 0 and its maximum (C79)."
}