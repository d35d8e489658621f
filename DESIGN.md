# Formal model of adamantine in Rocq (Coq 8.16.1)

## 1. Approach

* One *model* file per component (`rocq/theories/<X>Model.v`): total, computable Gallina functions following the C++ function by
  function, each definition preceded by a comment citing file and lines in `/repo`.  No proofs in the model files.
* One *specification* file (`<X>Spec.v`): what the English property means, without the model's helper functions.
* *Proof* files (`<X>Proofs*.v`, `<X>Float.v` for binary64), *example* files (`<X>Examples.v`: concrete databases, meshes, files), and one
  *property* file (`<X>Properties.v`) that contains only theorem statements closed by `exact`, the `Example`s showing that a
  concrete non-trivial case meets the hypotheses, and `Print Assumptions`.
* `properties.jsonl`, `MANIFEST.json`, `_CoqProject` and `ASSUMPTIONS.md` are generated (`tools/`), so that every theorem named `Cnn_...` is
  listed once.

### Numbers
The C++ computes in IEEE binary64.  Code is written once over an abstract carrier (record `Num` of `Base.v`: literals, +, -, *, /,
opposite, square root, <, <=, ==, largest number) and instantiated
* at the real numbers `RNum`: theorems about exact arithmetic; rounding is *not* modelled there;
* at Coq's primitive binary64 floats `FNum` (round to nearest even, the arithmetic of the code without fused operations and without
  excess precision): theorems whose statement says binary64, and executable counterexamples;
* at the rationals `QNum`: executable examples only.
Pure comparison logic (segment search, sorting, windows, schedules) is proved for any carrier whose comparisons embed into a total
order (`Embeds`), with instances for R, Q and finite binary64 numbers.  Conversion of text to numbers (`std::stod`, ptree translators) is
always a parameter: the theorems hold for every conversion.

### Outcomes
`Ok v | Throw | UB`: a C++ exception (`ASSERT_THROW`, ptree errors) is `Throw`; out of bounds access, `back()` of an empty vector, null
dereference, use of an uninitialised variable, `% 0` are `UB`.  Debug-only `ASSERT`s are not checks.  Loops that may not end are modelled
with fuel or as relations, and non-termination is a theorem for every amount of fuel.

### Properties the code violates
The statement in `properties.jsonl` is what a user relies on, including known exceptions.  The model is faithful to the code; a theorem with
suffix `_refuted` is the negation of the universal statement and exhibits the violation; the other theorems prove what does hold, with
the condition that separates the two.  A theorem weaker than its claim would have the suffix `_partial`.

## 2. Trusted base

1. Coq's kernel (8.16.1), including its virtual machine (`vm_compute` and `<:` casts in examples) and its implementation of the
   primitive types `PrimInt63.int` and `PrimFloat.float` by the processor's arithmetic.
2. The axioms of the standard library listed by `Print Assumptions`; `ASSUMPTIONS.md` gives the list theorem by theorem.  They are
   * the reals: `ClassicalDedekindReals.sig_forall_dec`, `sig_not_dec`; `functional_extensionality_dep`;
   * excluded middle `Classical_Prop.classic` (theorems that use Flocq);
   * the primitive integers and floats and their specifications (`FloatAxioms`: `add_spec`, `sub_spec`, `mul_spec`, `div_spec`, `opp_spec`,
     `abs_spec`, `eqb_spec`, `ltb_spec`, `leb_spec`, `of_uint63_spec`, `ldshiftexp_spec`, `Prim2SF_valid`, `Prim2SF_SF2Prim`,
     `SF2Prim_Prim2SF`; `Uint63`: `add_spec`, `sub_spec`, `lsl_spec`, `lsr_spec`, `lor_spec`, `ltb_spec`, `leb_spec`, `eqb_correct`, `eqb_refl`, `of_to_Z`).
   No axiom is declared here; there is no section-less variable, no admitted proof, no functor or module type, no disabled check.
   Flocq (lemmas about rounding) is used as a library of proofs, Coquelicot for Riemann integrals (C75 and C77, `is_RInt`); they add no axiom of their own.
3. The model: that the definitions of `*Model.v` say what the C++ says.  They were written by reading the code, cite it line by line, and were
   exercised by seeded bugs (`seeded/LOG.jsonl`): every edit that makes a claim false has to break a theorem of that claim.
4. The libraries behind the code (next section) behave as documented where a model takes their result as an argument.

## 3. What is modelled and what is not

| Code | Model | Not modelled / arguments |
|------|-------|--------------------------|
| `ScanPath.cc` | ScanPathModel | waiting for the file to change; `stod` is a parameter |
| `Quaternion.cc` | QuaternionModel | rounding |
| `GoldakHeatSource`, `ElectronBeamHeatSource`, `CubeHeatSource`, `HeatSource.hh`, `BeamHeatSourceProperties.hh` | HeatSourceModel | rounding; lanes of a `VectorizedArray` are a list; `exp` is the real function |
| `material_deposition.cc` | DepositionModel, RefineModel (search) | ArborX boxes in single precision |
| `MaterialProperty.*`, point-wise parts of `ThermalOperator*.hh` | MaterialModel | assembly of the matrix by deal.II / Kokkos, scatter to the degrees of freedom |
| `validate_input_database.cc`, `Boundary.cc`, units of `types.hh` | InputModel | the INFO/JSON syntax read by boost; names with dots |
| `adamantine.hh` (`split_global_communicator`, files of an ensemble), `ensemble_management.cc` | EnsembleModel | MPI itself; the Mersenne twister (a stream of draws) |
| `Microstructure.cc` | MicrostructureModel | |
| `experimental_data_utils.cc`, `PointCloud.cc`, frames of the time loop | ExperimentModel | waiting for files, general regular expressions |
| `DataAssimilator.cc` and its use | AssimilationModel, CholeskyModel | GMRES (solution is an argument), ArborX search, normal variates; deal.II's Cholesky factorisation is modelled after its loops |
| `adamantine.hh` `run` | RunModel | the physics between the calls, 2^32 steps |
| `Geometry.cc` (constructor) | MeshModel | reading of mesh files; `subdivided_hyper_rectangle` and `GridTools::scale` as documented |
| `ThermalOperator.hh` (set_time), sources during a run | EnergyModel | activation and refinement during the run, losses, cube sources |
| `adamantine.hh` `run_ensemble`, `ThermalPhysics.templates.hh` (heat sources, `update_physics_parameters`), `BeamHeatSourceProperties.hh`, `CubeHeatSource.cc` (constructor) | MembersModel | physics and analysis (any functions); scan path contents |
| `ThermalPhysics.templates.hh` (activation, melted flags, checkpoints), `refine_and_transfer` | CellModel | `SolutionTransfer`, interpolation of the temperature on refined cells |
| `compute_cells_to_refine`, `refine_mesh` | RefineModel | single precision boxes |
| `MechanicalPhysics.cc` | MechModel (data), StressModel (plasticity), ElasticModel (constraints, matrix, right hand side, solve, sequence of solves) | iterates of the conjugate gradient method (any sequence; the residual test is modelled), hanging node constraints (arguments), rounding |
| `MechanicalOperator.cc`, `BodyForce.cc` | ElementModel, ElasticModel (global assembly) | shape functions and JxW (arguments); AMG preconditioner; body forces are arguments (the application passes none: gravity is never used) |
| `PostProcessor.cc` (von Mises, files) | StressModel, OutputModel | VTK writer |
| `adamantine.cc` (template parameters, main), `MaterialProperty::fill_properties` | MainModel | Kokkos, MPI start-up, Caliper, messages |
| `ThermalOperator*.templates.hh` (mass matrix, vmult, faces), `evaluate_thermal_physics`, `evolve_one_time_step` | HeatModel | shape functions, JxW and constraints (arguments), `FEEvaluation`, `AffineConstraints` and `ExplicitRungeKutta` as documented by deal.II, parallel sums, rounding |
| `ThermalOperator*.templates.hh` (`reinit`, `get_state_from_material_properties`, `set_material_deposition_orientation`, `update_inv_rho_cp_cell`) | LayoutModel | the batches of cells and faces and the colours of `MatrixFree` (arguments) |
| `ThermalOperator.templates.hh` (`compute_inverse_mass_matrix`, `vmult_add`) and `evaluate_thermal_physics_impl` on several processes | ParallelModel | the distribution, ghosts and `compress` of deal.II (arguments, as documented); messages |
| `MechanicalOperator.cc`, `MechanicalPhysics.cc` on several processes | ParallelElasticModel | as above; global vectors and products of the linear solver |
| `ClosestSourcePointAdaptation.hh` | AdaptModel | quadrature points (arguments) |
| `Timer.cc` and the timers of `adamantine.hh` | TimerModel | 64-bit overflow |
| `Geometry.cc`, initial activation and material | GeometryModel | mesh files, ArborX |
| `RayTracing.cc` | RayModel | ArborX (candidate lists), float boxes |

Not modelled at all: construction of meshes, shape functions and constraints by deal.II, Newton and Krylov iterations, the CUDA/HIP back ends beyond the point-wise device formulas, Caliper profiling, command line parsing, MPI message passing,
scheduling of threads.  Accuracy of the solution with respect to the partial differential equation cannot be expressed in this model;
stability of the time steps can (C78, C79).

## 4. Per property

The plan (what is modelled, how it is proved) and the outcome.  "Main theorems" are in `<X>Properties.v`; the complete list is in `MANIFEST.json`.

| Id | Property | Files | Method | Scope and findings |
|----|----------|-------|--------|--------------------|
| C01 | Scan path answers do not depend on the query history | ScanPath | invariant of the cursor, induction over query lists, against a cursor-free specification | Full claim for nondecreasing query times, for every carrier with ordered comparisons (reals, rationals, finite binary64); decreasing times refuted by a witness. (6 theorems, proved) |
| C02 | Beam position moves along the scan path | ScanPath | case analysis on the segment containing the time | Exact real arithmetic, segments of positive duration; zero-duration first event gives NaN in binary64 (refuted witness). (3 theorems, proved) |
| C03 | Beam is off and parked after the end of the scan path | ScanPath | case analysis on the object state | Every object state, hence every history; empty path is UB. (2 theorems, proved) |
| C04 | Segment-format scan path files yield consistent end times | ScanPath | induction over lines | Exact iff-characterisation of the loader for every parser of numbers; end times nondecreasing over R for nonnegative dwell times; negative dwell and late end marker are refutation witnesses. (7 theorems, proved) |
| C05 | Event-series scan path files delay the power column by one line | ScanPath | induction over lines | Exact iff-characterisation of the loader. (1 theorems, proved) |
| C06 | Appending to a scan path file keeps the already simulated past | ScanPath | invariant over interleavings of queries and re-reads | Arbitrary interleavings of queries and append-only re-reads; shrunk file is UB (refuted witness). (3 theorems, proved) |
| C07 | Quaternion rotation is an invertible isometry | Quaternion | ring identities | Exact real arithmetic. (8 theorems, proved) |
| C08 | Five-axis orientation interpolation reaches both ends | Quaternion | trigonometry | Exact real arithmetic; opposite-sign pairs give NaN (refutation theorem). (4 theorems, proved) |
| C09 | Heat sources are nonnegative with bounded support | HeatSource | real analysis of the densities | Exact real arithmetic; density law, bounds, on/off; nonnegativity of the electron beam holds up to a third of the depth above the beam and is refuted above. (17 theorems, proved) |
| C10 | Vectorised and scalar heat source values agree | HeatSource | lane-wise comparison | Batches of any width; the mixed-batch disagreement is a refutation theorem, with an error bound for Goldak. (7 theorems, proved) |
| C11 | Source bounding boxes contain the beam they announce | HeatSource | linear arithmetic over the frames | Exact real arithmetic; scaling 2 and five-axis motion are refutation witnesses. (6 theorems, proved) |
| C12 | Material deposition files are accepted only in time order | Deposition | induction over lines | Exact iff-characterisation of the reader for every parser; sortedness and box geometry over the reals. (3 theorems, proved) |
| C13 | Deposition along the scan path covers the powered path | Deposition | induction over legs and boxes, fuel for the loop | Exact real arithmetic, three-axis paths with horizontal powered legs: termination, coverage, times, pairing of the columns. Vertical legs, zero length and five-axis paths: non-termination theorems. (5 theorems, proved) |
| C14 | Merging deposition paths sorts by time and loses nothing | Deposition | permutation and sortedness of any sort | For every implementation of std::sort meeting its contract; exact real arithmetic for the comparisons. (1 theorems, proved) |
| C15 | Every deposition box inside the simulated time is activated | Run | invariant over the passes of the loop | Exact arithmetic, thermal runs with a given duration. Windows are proved to cover [0, duration) and each window to contain only boxes of its time; other activation periods are a _refuted theorem. (4 theorems, proved) |
| C16 | Material states always form a partition of unity and powder never reappears | Material | invariant over temperature histories; Flocq error bounds | Device and per-cell updates: partition of unity and powder = least value so far, over every history, over R, and in binary64 (ranges exact, sum within 2^-52) for finite temperatures and 0 <= solidus < liquidus. The host batch update is characterised exactly; the sum-to-2 defect is a refutation theorem. (8 theorems, proved) |
| C17 | Liquid fraction is the clamped linear melting law | Material | case analysis, continuity; Flocq | Exact arithmetic for the law, monotonicity and continuity; the range also in binary64; solidus = liquidus gives NaN in binary64. (6 theorems, proved) |
| C18 | Table properties are clamped piecewise-linear interpolation | Material | induction over table rows | Exact arithmetic; parsing for every decimal parser. The last interval of a full table is a refutation theorem. (6 theorems, proved) |
| C19 | Property evaluation is the state-ratio weighted mean and agrees on host and device | Material | algebra of weighted means | Exact arithmetic; std::pow with an integer exponent is modelled as a power. (3 theorems, proved) |
| C20 | Cell state stored from quadrature points is their mean and stays a partition of unity | Material | sums over quadrature points | Exact arithmetic; cells are indices, the map from cells to batches is a parameter. (8 theorems, proved) |
| C21 | Radiative boundary flux is the Stefan-Boltzmann law | Material | factorisation of T^4 differences | Exact arithmetic; temperatures nonnegative (Kelvin) for the sign. (5 theorems, proved) |
| C22 | Host and device agree on when latent heat applies | Material | case analysis on the phase | Exact arithmetic; full characterisation of the disagreement. (6 theorems, proved) |
| C23 | Anisotropic conduction is symmetric and dissipative | Material | quadratic forms | Exact arithmetic, any unit vector (cos, sin). (3 theorems, proved) |
| C24 | Input validation accepts exactly the documented inputs it checks | Input | case analysis in the order of the checks | Property-tree model; every check of validate_input_database, for any translators of booleans and numbers; the exceptions named in the statement are _refuted theorems. Path names are assumed to contain no dot. (9 theorems, proved) |
| C25 | Boundary condition lines give every boundary id its declared type | Input | induction over ids | All boundary databases and id lists. The claim for the largest id is refuted (the printed-surface line overwrites it). (9 theorems, proved) |
| C26 | Ensemble members are distributed without loss or overlap | Ensemble | arithmetic of div and mod; rounding of the quotient | All process counts and ensemble sizes; the binary64 quotient of the code is proved to take the decisions of the exact one below 2^32. (7 theorems, proved) |
| C27 | Ensemble restart reloads the member that was checkpointed | Ensemble | characterisation of file names | Exact characterisation (own file iff first group), what the others load, and a counterexample to the property as wanted. (4 theorems, proved) |
| C28 | Random ensemble parameters are nonnegative and reproducible across partitions | Ensemble | induction over the stream of draws | Any arithmetic and stream; nonnegativity with any rejections, partition independence without rejections, counterexample with one. (4 theorems, proved) |
| C29 | Bounding heat sources bound every ensemble member | Ensemble | maxima over the members | Real arithmetic; diameters bound and are attained, counterexample for the depth. (4 theorems, proved) |
| C30 | Cooling rate and solidification records | Microstructure | induction over passes and cells | Point recorded iff temperature crosses the liquidus downwards, once per cell; gradient norm; cooling-rate theorem with a counterexample for its sign convention; file layout. (9 theorems, proved) |
| C31 | Camera log parsing keeps exactly the requested frames | Experiment, Malformed | induction over lines | Necessary and sufficient characterisation of a successful read; counterexample for the consecutiveness check. (3 theorems, proved) |
| C32 | Every experimental frame is assimilated once and in order | Experiment | invariant of the frame cursor; binary64 comparisons | Real and binary64 arithmetic, first_frame = 0; counterexamples for first_frame > 0, restart and output on assimilation. (11 theorems, proved) |
| C33 | Localisation function is the Gaspari-Cohn taper | Assimilation | polynomial inequalities | Real arithmetic; binary64 counterexample for the end points of the taper. (8 theorems, proved) |
| C34 | Ensemble covariance is symmetric positive semidefinite | Assimilation | sums of squares, sparsity pattern invariants | PSD for the unlocalised covariance; counterexamples for step localisation and augmented parameters; PSD of the Gaspari-Cohn tapered matrix is not claimed (needs Bochner's theorem). Sparsity pattern under dofs numbered in cell order, counterexample otherwise. (13 theorems, proved) |
| C35 | Observation operator and innovation agree | Assimilation | sums over indices | Normal variates are an argument; Cholesky branch for non diagonal R (never built by the program) not modelled. (5 theorems, proved) |
| C36 | Gathering and scattering the ensemble is lossless | Assimilation, Undefined | list algebra | Counterexample for parameters on non-root processes. (7 theorems, proved) |
| C37 | The time loop ends exactly at the requested duration | Run | well-founded descent; Flocq for binary64 | Exact arithmetic, plus binary64: monotone times, exact end, termination when the step is at least ulp(duration), stagnation otherwise (_refuted). (5 theorems, proved) |
| C38 | Output, checkpoint and refinement happen on schedule | Run, Undefined | invariant over passes | Any carrier, any run; the unsigned step counter is assumed not to wrap around. (7 theorems, proved) |
| C39 | Restart continues the interrupted run | Run | bisimulation of the loop after restart | Exact arithmetic; times, steps and schedule after restart; windows and file names differ as the statement says (_refuted / exact characterisation). (5 theorems, proved) |
| C40 | A growing scan path ends the simulation when it is finished | Run | invariant over file histories | Any carrier and any history of the scan path files. (4 theorems, proved) |
| C41 | Activating material preserves the existing solution | Cell | list induction over cells and nodes | Preservation of states, directions and melted flags on any number of processes; temperatures on one process, on several under a condition on the node's owner; refuted: on several processes a temperature at the interface can be lost; deposited cells are marked as melted. (11 theorems, proved) |
| C42 | Checkpoint data survives the save/load round trip | Cell | pack/unpack inversion over owners | Round trip for any change of the number of processes. Refuted: the saved material state may be stale (no set_state_to_material_properties before save_checkpoint). (6 theorems, proved) |
| C43 | Melted flags are sticky | Cell | invariant over steps | Refuted: the threshold of the run is the solidus of the first material for every cell. (6 theorems, proved) |
| C44 | Plastic return mapping is consistent | Mech, Undefined | tensor algebra over R | Real-number plasticity at a point, for paths, cells and successive solves; refuted: admissibility with kinematic hardening (squared plastic modulus), elastic limit zero gives NaN. deal.II's stiffness tensor contraction is modelled as lambda tr(e) I + 2 mu e. (15 theorems, proved) |
| C45 | Mechanical state transfer round trip | Mech | pack/unpack inversion | All numbers of cells, points and processes; the interpolation of the displacement is deal.II's. (2 theorems, proved) |
| C46 | Mechanical activity follows solid material | Mech | refinement to single-cell histories | Refinement of any history of setups, stress updates and mesh changes to the history of single cells. (4 theorems, proved) |
| C47 | Element stiffness is symmetric positive semidefinite | Mech | quadratic forms over sums | The element matrix; distribution to the global matrix and constraints are deal.II's. (4 theorems, proved) |
| C48 | Von Mises output | Mech | algebra of invariants of tensors | Exact condition; refuted for xz shear and in two dimensions. (9 theorems, proved) |
| C49 | Source point adaptation picks the nearest quadrature point | Adapt | minimisation over lists; order embedding of binary64 | Nearest-point transfer over the reals (first minimiser) and in binary64 (least computed distance, NaN passed over, UB otherwise); round trip under a correspondence condition and refuted without it. (8 theorems, proved) |
| C50 | Timers accumulate exactly the started intervals | Adapt | induction over call histories | All histories; refuted: reset forgets the running start, reading bounded by the last clock reading after two stops; ensemble driver schedules. (12 theorems, proved) |
| C51 | STL files are parsed facet by facet | Geometry | induction over bytes; exactness of single precision decoding | Bytes to triangles, written files read back, IEEE single decoding exact, box tight; refuted: files shorter than 84 bytes are not refused (uninitialised count). (15 theorems, proved) |
| C52 | A ray is stopped by the first face it meets | Ray | vector geometry over R, fold invariants, slab argument for boxes | Intersection over R (flat faces; the ArborX search result is an input), box meshes, all processes, file rows; binary64: degenerate faces never hit; refuted: candidates on another process are lost, the parallel test depends on the length of the direction. (12 theorems, proved) |
| C53 | Exactly the inactive cells met by a deposition box are candidates for activation | Deposition | list filters | Mesh as a list of cells with bounding boxes; ArborX query modelled as exact box intersection. (2 theorems, proved) |
| C54 | Point-cloud frames are read row by row, camera by camera | Experiment | induction over fields and lines | Waiting for files and std::regex beyond literal patterns are not modelled. (4 theorems, proved) |
| C55 | Observations are attached to mesh nodes consistently on all processes | Experiment | induction over nodes and observations | ArborX' nearest neighbour search is a parameter. (4 theorems, proved) |
| C56 | Assimilation adds the Kalman gain applied to the innovation | Assimilation | linear algebra over sums | GMRES is an argument assumed to solve the system where the theorem says so. (12 theorems, proved) |
| C57 | Augmented beam parameters are read from and put back into the same entries | Assimilation | list updates | Databases reduced to the entries concerned. (4 theorems, proved) |
| C58 | Mesh adaptation follows the beams and keeps the cell data | Cell | flag algebra; sampling argument | ArborX' single precision boxes and the interpolation of the temperature are not modelled; refuted: cells passed between two samples, coarsening of children with different data. (8 theorems, proved) |
| C59 | Thermal load and weight | Mech | sums over quadrature points | Element right hand side; refuted: zero stress in free expansion. The application never passes body forces. (7 theorems, proved) |
| C60 | Displacements survive changes of the active cells | Mech | fold over cells, last writer | Exact rule by the last cell; refuted: kept in general. (4 theorems, proved) |
| C61 | Cells of an STL part are found by the side of the nearest triangle | Geometry | convexity and distance minimisation | Nearest query of ArborX is an input constrained by nearest_answer; refuted for centres near sharp tips outside the part. (6 theorems, proved) |
| C62 | The initial material is solid, then powder, then nothing | Geometry | order arguments | Layers over R, monotone in binary64. (4 theorems, proved) |
| C63 | Output files are distinct, complete and refer to each other | Output | names are split at their last dot; path resolution by induction | Distinctness, completeness and references for all names (references: exact conditions); refuted: relative output_dir, no final slash, prefix with a directory, thermo-mechanics and experimental data ignore output_dir, .pvd after a restart. (16 theorems, proved) |
| C64 | Output fields are the strain and the state ratios | Output | loop invariants | Strain in every number structure, exact symmetry in binary64; material fields with the numbering of reinit_dofs. (6 theorems, proved) |
| C65 | Material properties are stored as given | Main, Malformed | folds over the tree as maxima; pointwise characterisation of the loops | Refuted: mechanical tables are not functions of the temperature. (8 theorems, proved) |
| C66 | The program runs the simulation asked for | Main | case analysis of main over the validation theorem | Refuted: a valid input is run (two or more materials start nothing, status 0); errors exit with a nonzero status. (7 theorems, proved) |
| C67 | The heat released and lost is the heat gained | Heat | weak form: the scalar product of the loops over cells and faces with any test vector is a sum over quadrature points; test field one | Refuted: with a heat capacity that varies in space the heat content is not conserved by conduction. (7 theorems, proved) |
| C68 | Conduction evens temperatures out | Heat | weak form with the temperature itself, a constant or another temperature as test field | The rate of a hanging node is its own entry (harmless: not used). (8 theorems, proved) |
| C69 | Heat leaves through the boundary of the active material only | Heat | weak form of the faces; flags | Refuted: a boundary "convective,adiabatic" behaves the same whatever the other boundaries are. (4 theorems, proved) |
| C70 | Time steps are those of the method asked for | Heat | linear functionals of the unrolled schemes; ring identities |  (9 theorems, proved) |
| C71 | Host and device compute the same rates | Heat | weak form with the hat function of a node, on host and device | Refuted: small cells; the device leaves nodes with a mass of at most 1e-15 at their temperature. (4 theorems, proved) |
| C72 | The displacement balances the loads | Elastic | assembly as a sum of element contributions (the bilinear form of virtual work tested with every field), residual of the accepted iterate, Cauchy-Schwarz; positive definiteness point by point | Refuted: solvable systems are solved (max_iter is a tenth of the number of unknowns, 0 below ten: exception); mechanical-only runs (reference temperatures are always given, the thermal DoFHandler is null: undefined behaviour). (15 theorems, proved) |
| C73 | The stress is in equilibrium while the material is elastic | Elastic | induction over the loads: the strain increments telescope; the return mapping of C44 at every point; work of the stress summed over the points | Refuted: equilibrium after yielding (no second solve); equilibrium after a cell solidifies (its stress starts at zero, the displacement does not); repeated solves with kinematic hardening leave the stress unchanged. (12 theorems, proved) |
| C74 | Every ensemble member runs with its own sources and its last analysis | Members | refinement: the run on databases (ptree put and get) against a run without databases, by a simulation relation kept by every pass; frame lemma of ptree put for the entries a member does not read; physics and analysis are arbitrary functions | Refuted: assimilated parameters stay in their physical range; uncertain material properties spread the members (MaterialProperty, Geometry and Boundary are built from the common input); a restart keeps the assimilated parameters. (11 theorems, proved) |
| C75 | The heat a beam deposits is the absorbed power | Power | volume integrals (Coquelicot Riemann integrals) of the density in cylindrical coordinates, substitution and antiderivatives; the truncated Gaussian bounded by its alternating Taylor polynomials and PI by Machin's formula | Beams of a scan path without rotation (not five-axis).  Refuted: at most the absorbed power is deposited when material lies above the plane; in two dimensions the heat does not depend on the diameter. (9 theorems, proved) |
| C76 | The mesh is the box asked for | Mesh | induction over the axes and over the layers of cells (which layer holds a point, which layers have their centre below a height); reading of the property tree entry by entry | subdivided_hyper_rectangle is modelled as documented by deal.II.  Refuted: the unit of the mesh applies to a generated mesh; an accepted unit or number of divisions is usable. (14 theorems, proved) |
| C77 | A run delivers the energy of the scan paths | Energy | summation by parts of the power modifier into thresholds, each of which is crossed in one time step (induction over the steps); invariant of the cursor of the scan path along the stages; C67 and C75 for the heat of every stage | Mesh and boundary conditions fixed during the run; cubes left out (no scan path).  Refuted: the error is a fraction of the energy (flashes). (8 theorems, proved) |
| C78 | Time steps below the limit are stable | Stability | the rates are a symmetric nonnegative form; moments of the form on the interval below the limit, with sum-of-squares certificates for the stability polynomials; induction over the steps; Gershgorin rows, Jensen at hanging nodes, modes of the box elements | Exact arithmetic; laws that do not depend on the temperature within a step, no radiation, no sources; constant 1/100 of the decay not sharp; limits 1.99, 2.5, 2.75 instead of 2, 2.512, 2.785. (10 theorems, proved) |
| C79 | Conduction and convection do not overshoot | Maximum | the step is a nonnegative combination of powers of a nonnegative substochastic matrix; induction over the steps; the entries of the element matrices from the polarised modes of the box elements | Exact arithmetic; no radiation, no sources; with the Runge-Kutta schemes the laws do not depend on the temperature within a step; the criterion for boxes is for insulated meshes without hanging nodes. (5 theorems, proved) |
| C80 | What an analysis does to mean and spread | Analysis | the update of a member is affine in its innovation: averages and deviations of the exact solutions solve the averaged systems; polarisation of the sample covariance; positive definite elimination for solvability | Exact arithmetic; GMRES is an argument (exact where the statement says so); the perturbations are arbitrary numbers, statements about expectations are replaced by conditions on their values over the members. (12 theorems, proved) |
| C81 | Correlated observation errors | Cholesky | induction over the rows of the factorisation with the elimination of the last row for positivity; uniqueness column by column; linearity of the perturbations in the draws and the variance identity of C80 | Exact arithmetic; deal.II's factorisation (not in the repository) is modelled after its loops; a zero pivot, which gives infinities in binary64, is modelled as the failure that follows.  The program itself only builds diagonal matrices; the class accepts any. (12 theorems, proved) |
| C82 | Convection and radiation do not overshoot | Radiation | the flux compared with linear fluxes towards the two extremes (factorisation of T^4 - Tr^4), then the nonpositive off-diagonal entries; at the corners of a box the derivatives are differences along edges, and the sides of a box weigh at most 6/h of its nodal masses; induction over the steps | Exact arithmetic, no sources, forward Euler; the explicit limit is for Gauss-Lobatto points without hanging nodes. (6 theorems, proved) |
| C83 | Temperatures of a heated part | Heated | the rate is that without beams plus the heat that the beams deliver to the node over its mass, which is between 0 and the largest rate of heating because shape functions at the points are not negative; C82 for the rest; induction over the steps with growing extremes | Exact arithmetic, forward Euler; the explicit limit is for Gauss-Lobatto points without hanging nodes. (5 theorems, proved) |
| C84 | Quadrature points have the data of their cells | Layout | the loops are folds over the visits in their order; all writes to an entry write the same value, because a lane holds one cell; the cells with material are a strictly increasing list, so the counters of the two loops agree; the places of the device are disjoint and bounded by the number of owned cells | Faces whose side with material belongs to another process: refuted (read as material 0). (10 theorems, proved) |
| C85 | Processes, distribution and numbering | Parallel | compress over the processes of the sums over their cells is the sum over all cells (permutation), reading needs only known entries; a step preserves every relation that the vector operations and the rates preserve; a renumbering preserves nodal values, fields, gradients, the weak form and the lumped mass | Over the reals; bitwise equality in binary64 is refuted. (6 theorems, proved) |
| C86 | Linear temperature profiles are exact | Steady | the weak form of a profile is a constant flux tested with hat functions, which the divergence theorem turns into the boundary integral; for boxes the theorem holds box by box and sides facing each other cancel; induction over stages and steps | Exact arithmetic; box meshes with Gauss-Lobatto points for the divergence theorem. (5 theorems, proved) |
| C87 | Which loads a body can carry | Support | projection onto the span of the columns of the (semi-definite) matrix: what is left is a displacement without strain on which the load does no work, so it is zero; a box held at one side: the strain at two points along each edge determines a rigid motion; the residual cannot fall below the work on a rigid displacement | Exact arithmetic; the residual that the solver checks is taken to be that of the iterate. (8 theorems, proved) |
| C88 | What malformed files do | Malformed | outcome Ok / exception / undefined of the loaders, characterised by induction over the lines: undefined iff the reading of the columns runs out before one that is not a number | The outcomes of the number parser (number or exception) are a parameter. (14 theorems, proved) |
| C89 | Where a part lies makes no difference | Placement | Uses EnergyModel and HeatModel over the reals.  PlacementSpec defines the motion and what it does to meshes, laws, paths and beams.  The path position commutes with affine maps, beams only see distances to the axis and height differences, the conductivity tensor is carried along (orthogonality), so submitted vectors turn with the gradients and all integrals agree; then induction over stages and steps with a relation between the states of the beams (after the end of its path a beam has no power and no position).  Five-axis paths by a counterexample. | Full statement; that paths with rotations do not satisfy it is C89_five_axis_refuted. (7 theorems, proved) |
| C90 | Beams, surroundings and initial temperatures add up | Superposition | Uses EnergyModel and HeatModel over the reals.  SuperpositionSpec says what combined scenarios are.  The weak form is linear in the temperature together with the densities of the beams and the surroundings, so rates of combinations are combinations of rates, then induction over stages and steps.  For the beams that the code moves: the state of each beam does not depend on the others, and a beam whose power is not negative heats nothing while it is off, so the switch that leaves all beams out changes nothing.  Degrees: the scenario of one degree everywhere stays uniform.  Radiation by a counterexample. | Full statement; that runs with radiation do not satisfy it is C90_superposition_refuted. (9 theorems, proved) |
| C91 | Shorter time steps converge to the solution of the heat equation | Convergence | Uses HeatModel over the reals with Coquelicot's derivatives and limits.  ConvergenceSpec says what a solution of the equations is.  The rate is an affine function of the temperatures (superposition applied to the unit vectors); each scheme's step is the Taylor polynomial of its order in the matrix, by the tableaus of C70; local errors by the Taylor-Lagrange theorem with all derivatives of the solution bounded on [0,T], stability by the Lipschitz constant of the step, then induction over the steps.  Existence by the power series of the solution, uniqueness from convergence of forward Euler. | Full statement. (5 theorems, proved) |
| C92 | The mechanical problem does not depend on the number of processes | ParallelElastic | ParallelElasticModel runs ElasticModel on each process with the flag of the cells it owns and adds what they assemble.  ParallelElasticSpec says what sharing cells, flags, temperatures and stress variables means.  Sums over own cells of all processes are sums over all cells; the position of a flag among the own flags by induction over the cells; then the displacement is the same since the solver uses products with the matrix only, the stress by the pointwise description of the update, and induction over the solves. | Full statement in exact arithmetic; the linear solver's iterates are an argument (its preconditioner depends on the distribution). (5 theorems, proved) |
| C93 | More heat never makes a part colder | Comparison | HeatModel and EnergyModel; ComparisonSpec says what heated more means.  The difference of the weak forms of both runs at a node is at least minus the exchange of the difference of the temperatures with the largest loss coefficients (fourth powers are monotone and their slope is bounded), so a step does not make the difference negative if it takes from no node more than it has (sink of C82); then induction over the steps; for beams over the evaluations of the run with C90's decomposition of the driven sources.  For other schemes the difference of the runs is a run without heat in surroundings of 0 K (C90), which stays between 0 and its maximum (C79). | Forward Euler, except C93_any_scheme (all three schemes for runs that differ in their start only, without radiation; with sources the Runge-Kutta schemes would need other limits); electron beams are excluded from C93_another_beam since the code lets them release negative heat above the surface (C09); real arithmetic. (12 theorems, proved) |
