{
 "C01": [
  "proved",
  "Full claim for nondecreasing query times, for every carrier with ordered comparisons (reals, rationals, finite binary64); decreasing times refuted by a witness."
 ],
 "C02": [
  "proved",
  "Exact real arithmetic, segments of positive duration; zero-duration first event gives NaN in binary64 (refuted witness)."
 ],
 "C03": [
  "proved",
  "Every object state, hence every history; empty path is UB."
 ],
 "C04": [
  "proved",
  "Exact iff-characterisation of the loader for every parser of numbers; end times nondecreasing over R for nonnegative dwell times; negative dwell and late end marker are refutation witnesses."
 ],
 "C05": [
  "proved",
  "Exact iff-characterisation of the loader."
 ],
 "C06": [
  "proved",
  "Arbitrary interleavings of queries and append-only re-reads; shrunk file is UB (refuted witness)."
 ],
 "C07": [
  "proved",
  "Exact real arithmetic."
 ],
 "C08": [
  "proved",
  "Exact real arithmetic; opposite-sign pairs give NaN (refutation theorem)."
 ],
 "C09": [
  "proved",
  "Exact real arithmetic; density law, bounds, on/off; nonnegativity of the electron beam holds up to a third of the depth above the beam and is refuted above."
 ],
 "C10": [
  "proved",
  "Batches of any width; the mixed-batch disagreement is a refutation theorem, with an error bound for Goldak."
 ],
 "C11": [
  "proved",
  "Exact real arithmetic; scaling 2 and five-axis motion are refutation witnesses."
 ],
 "C12": [
  "proved",
  "Exact iff-characterisation of the reader for every parser; sortedness and box geometry over the reals."
 ],
 "C13": [
  "proved",
  "Exact real arithmetic, three-axis paths with horizontal powered legs: termination, coverage, times, pairing of the columns. Vertical legs, zero length and five-axis paths: non-termination theorems."
 ],
 "C14": [
  "proved",
  "For every implementation of std::sort meeting its contract; exact real arithmetic for the comparisons."
 ],
 "C53": [
  "proved",
  "Mesh as a list of cells with bounding boxes; ArborX query modelled as exact box intersection."
 ],
 "C16": [
  "proved",
  "Device and per-cell updates: partition of unity and powder = least value so far, over every history, over R, and in binary64 (ranges exact, sum within 2^-52) for finite temperatures and 0 <= solidus < liquidus. The host batch update is characterised exactly; the sum-to-2 defect is a refutation theorem."
 ],
 "C17": [
  "proved",
  "Exact arithmetic for the law, monotonicity and continuity; the range also in binary64; solidus = liquidus gives NaN in binary64."
 ],
 "C18": [
  "proved",
  "Exact arithmetic; parsing for every decimal parser. The last interval of a full table is a refutation theorem."
 ],
 "C19": [
  "proved",
  "Exact arithmetic; std::pow with an integer exponent is modelled as a power."
 ],
 "C20": [
  "proved",
  "Exact arithmetic; cells are indices, the map from cells to batches is a parameter."
 ],
 "C21": [
  "proved",
  "Exact arithmetic; temperatures nonnegative (Kelvin) for the sign."
 ],
 "C22": [
  "proved",
  "Exact arithmetic; full characterisation of the disagreement."
 ],
 "C23": [
  "proved",
  "Exact arithmetic, any unit vector (cos, sin)."
 ],
 "C24": [
  "proved",
  "Property-tree model; every check of validate_input_database, for any translators of booleans and numbers; the exceptions named in the statement are _refuted theorems. Path names are assumed to contain no dot."
 ],
 "C25": [
  "proved",
  "All boundary databases and id lists. The claim for the largest id is refuted (the printed-surface line overwrites it)."
 ],
 "C15": [
  "proved",
  "Exact arithmetic, thermal runs with a given duration. Windows are proved to cover [0, duration) and each window to contain only boxes of its time; other activation periods are a _refuted theorem."
 ],
 "C37": [
  "proved",
  "Exact arithmetic, plus binary64: monotone times, exact end, termination when the step is at least ulp(duration), stagnation otherwise (_refuted)."
 ],
 "C38": [
  "proved",
  "Any carrier, any run; the unsigned step counter is assumed not to wrap around."
 ],
 "C39": [
  "proved",
  "Exact arithmetic; times, steps and schedule after restart; windows and file names differ as the statement says (_refuted / exact characterisation)."
 ],
 "C40": [
  "proved",
  "Any carrier and any history of the scan path files."
 ],
 "C26": [
  "proved",
  "All process counts and ensemble sizes; the binary64 quotient of the code is proved to take the decisions of the exact one below 2^32."
 ],
 "C27": [
  "proved",
  "Exact characterisation (own file iff first group), what the others load, and a counterexample to the property as wanted."
 ],
 "C28": [
  "proved",
  "Any arithmetic and stream; nonnegativity with any rejections, partition independence without rejections, counterexample with one."
 ],
 "C29": [
  "proved",
  "Real arithmetic; diameters bound and are attained, counterexample for the depth."
 ],
 "C30": [
  "proved",
  "Point recorded iff temperature crosses the liquidus downwards, once per cell; gradient norm; cooling-rate theorem with a counterexample for its sign convention; file layout."
 ],
 "C31": [
  "proved",
  "Necessary and sufficient characterisation of a successful read; counterexample for the consecutiveness check."
 ],
 "C32": [
  "proved",
  "Real and binary64 arithmetic, first_frame = 0; counterexamples for first_frame > 0, restart and output on assimilation."
 ],
 "C54": [
  "proved",
  "Waiting for files and std::regex beyond literal patterns are not modelled."
 ],
 "C55": [
  "proved",
  "ArborX' nearest neighbour search is a parameter."
 ],
 "C33": [
  "proved",
  "Real arithmetic; binary64 counterexample for the end points of the taper."
 ],
 "C34": [
  "proved",
  "PSD for the unlocalised covariance; counterexamples for step localisation and augmented parameters; PSD of the Gaspari-Cohn tapered matrix is not claimed (needs Bochner's theorem). Sparsity pattern under dofs numbered in cell order, counterexample otherwise."
 ],
 "C35": [
  "proved",
  "Normal variates are an argument; Cholesky branch for non diagonal R (never built by the program) not modelled."
 ],
 "C36": [
  "proved",
  "Counterexample for parameters on non-root processes."
 ],
 "C56": [
  "proved",
  "GMRES is an argument assumed to solve the system where the theorem says so."
 ],
 "C57": [
  "proved",
  "Databases reduced to the entries concerned."
 ],
 "C41": [
  "proved",
  "Preservation of states, directions and melted flags on any number of processes; temperatures on one process, on several under a condition on the node's owner; refuted: on several processes a temperature at the interface can be lost; deposited cells are marked as melted."
 ],
 "C42": [
  "proved",
  "Round trip for any change of the number of processes. Refuted: the saved material state may be stale (no set_state_to_material_properties before save_checkpoint)."
 ],
 "C43": [
  "proved",
  "Refuted: the threshold of the run is the solidus of the first material for every cell."
 ],
 "C58": [
  "proved",
  "ArborX' single precision boxes and the interpolation of the temperature are not modelled; refuted: cells passed between two samples, coarsening of children with different data."
 ],
 "C44": [
  "proved",
  "Real-number plasticity at a point, for paths, cells and successive solves; refuted: admissibility with kinematic hardening (squared plastic modulus), elastic limit zero gives NaN. deal.II's stiffness tensor contraction is modelled as lambda tr(e) I + 2 mu e."
 ],
 "C45": [
  "proved",
  "All numbers of cells, points and processes; the interpolation of the displacement is deal.II's."
 ],
 "C46": [
  "proved",
  "Refinement of any history of setups, stress updates and mesh changes to the history of single cells."
 ],
 "C47": [
  "proved",
  "The element matrix; distribution to the global matrix and constraints are deal.II's."
 ],
 "C48": [
  "proved",
  "Exact condition; refuted for xz shear and in two dimensions."
 ],
 "C59": [
  "proved",
  "Element right hand side; refuted: zero stress in free expansion. The application never passes body forces."
 ],
 "C60": [
  "proved",
  "Exact rule by the last cell; refuted: kept in general."
 ],
 "C49": [
  "proved",
  "Nearest-point transfer over the reals (first minimiser) and in binary64 (least computed distance, NaN passed over, UB otherwise); round trip under a correspondence condition and refuted without it."
 ],
 "C50": [
  "proved",
  "All histories; refuted: reset forgets the running start, reading bounded by the last clock reading after two stops; ensemble driver schedules."
 ],
 "C51": [
  "proved",
  "Bytes to triangles, written files read back, IEEE single decoding exact, box tight; refuted: files shorter than 84 bytes are not refused (uninitialised count)."
 ],
 "C61": [
  "proved",
  "Nearest query of ArborX is an input constrained by nearest_answer; refuted for centres near sharp tips outside the part."
 ],
 "C62": [
  "proved",
  "Layers over R, monotone in binary64."
 ],
 "C52": [
  "proved",
  "Intersection over R (flat faces; the ArborX search result is an input), box meshes, all processes, file rows; binary64: degenerate faces never hit; refuted: candidates on another process are lost, the parallel test depends on the length of the direction."
 ],
 "C63": [
  "proved",
  "Distinctness, completeness and references for all names (references: exact conditions); refuted: relative output_dir, no final slash, prefix with a directory, thermo-mechanics and experimental data ignore output_dir, .pvd after a restart."
 ],
 "C64": [
  "proved",
  "Strain in every number structure, exact symmetry in binary64; material fields with the numbering of reinit_dofs."
 ],
 "C65": [
  "proved",
  "Refuted: mechanical tables are not functions of the temperature."
 ],
 "C66": [
  "proved",
  "Refuted: a valid input is run (two or more materials start nothing, status 0); errors exit with a nonzero status."
 ],
 "C67": [
  "proved",
  "Refuted: with a heat capacity that varies in space the heat content is not conserved by conduction."
 ],
 "C68": [
  "proved",
  "The rate of a hanging node is its own entry (harmless: not used)."
 ],
 "C69": [
  "proved",
  "Refuted: a boundary \"convective,adiabatic\" behaves the same whatever the other boundaries are."
 ],
 "C70": [
  "proved",
  ""
 ],
 "C71": [
  "proved",
  "Refuted: small cells; the device leaves nodes with a mass of at most 1e-15 at their temperature."
 ],
 "C72": [
  "proved",
  "Refuted: solvable systems are solved (max_iter is a tenth of the number of unknowns, 0 below ten: exception); mechanical-only runs (reference temperatures are always given, the thermal DoFHandler is null: undefined behaviour)."
 ],
 "C73": [
  "proved",
  "Refuted: equilibrium after yielding (no second solve); equilibrium after a cell solidifies (its stress starts at zero, the displacement does not); repeated solves with kinematic hardening leave the stress unchanged."
 ],
 "C74": [
  "proved",
  "Refuted: assimilated parameters stay in their physical range; uncertain material properties spread the members (MaterialProperty, Geometry and Boundary are built from the common input); a restart keeps the assimilated parameters."
 ],
 "C75": [
  "proved",
  "Beams of a scan path without rotation (not five-axis).  Refuted: at most the absorbed power is deposited when material lies above the plane; in two dimensions the heat does not depend on the diameter."
 ],
 "C76": [
  "proved",
  "subdivided_hyper_rectangle is modelled as documented by deal.II.  Refuted: the unit of the mesh applies to a generated mesh; an accepted unit or number of divisions is usable."
 ],
 "C77": [
  "proved",
  "Mesh and boundary conditions fixed during the run; cubes left out (no scan path).  Refuted: the error is a fraction of the energy (flashes)."
 ],
 "C78": [
  "proved",
  "Exact arithmetic; laws that do not depend on the temperature within a step, no radiation, no sources; constant 1/100 of the decay not sharp; limits 1.99, 2.5, 2.75 instead of 2, 2.512, 2.785."
 ],
 "C79": [
  "proved",
  "Exact arithmetic; no radiation, no sources; with the Runge-Kutta schemes the laws do not depend on the temperature within a step; the criterion for boxes is for insulated meshes without hanging nodes."
 ],
 "C80": [
  "proved",
  "Exact arithmetic; GMRES is an argument (exact where the statement says so); the perturbations are arbitrary numbers, statements about expectations are replaced by conditions on their values over the members."
 ],
 "C81": [
  "proved",
  "Exact arithmetic; deal.II's factorisation (not in the repository) is modelled after its loops; a zero pivot, which gives infinities in binary64, is modelled as the failure that follows.  The program itself only builds diagonal matrices; the class accepts any."
 ],
 "C82": [
  "proved",
  "Exact arithmetic, no sources, forward Euler; the explicit limit is for Gauss-Lobatto points without hanging nodes."
 ],
 "C83": [
  "proved",
  "Exact arithmetic, forward Euler; the explicit limit is for Gauss-Lobatto points without hanging nodes."
 ],
 "C84": [
  "proved",
  "Faces whose side with material belongs to another process: refuted (read as material 0)."
 ],
 "C85": [
  "proved",
  "Over the reals; bitwise equality in binary64 is refuted."
 ],
 "C86": [
  "proved",
  "Exact arithmetic; box meshes with Gauss-Lobatto points for the divergence theorem."
 ],
 "C87": [
  "proved",
  "Exact arithmetic; the residual that the solver checks is taken to be that of the iterate."
 ],
 "C88": [
  "proved",
  "The outcomes of the number parser (number or exception) are a parameter."
 ],
 "C89": [
  "proved",
  "Full statement; that paths with rotations do not satisfy it is C89_five_axis_refuted."
 ],
 "C90": [
  "proved",
  "Full statement; that runs with radiation do not satisfy it is C90_superposition_refuted."
 ],
 "C91": [
  "proved",
  "Full statement."
 ],
 "C92": [
  "proved",
  "Full statement in exact arithmetic; the linear solver's iterates are an argument (its preconditioner depends on the distribution)."
 ],
 "C93": [
  "proved",
  "Forward Euler, except C93_any_scheme (all three schemes for runs that differ in their start only, without radiation; with sources the Runge-Kutta schemes would need other limits); electron beams are excluded from C93_another_beam since the code lets them release negative heat above the surface (C09); real arithmetic."
 ]
}