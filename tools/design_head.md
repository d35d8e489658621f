# Formal model of adamantine in Rocq (Coq 8.16.1)

## 1. Approach

* One *model* file per component (`rocq/theories/<X>Model.v`): total, computable Gallina functions following the C++ function by
  function, each definition preceded by a comment citing file and lines in `/repo`.  No proofs in the model files.
* One *specification* file (`<X>Spec.v`): what the English property means, without the model's helper functions.
* *Proof* files (`<X>Proofs*.v`, `<X>Float.v` for binary64), *example* files (`<X>Examples.v`: concrete databases, meshes, files), and one
  *property* file (`<X>Properties.v`) that contains only theorem statements closed by `exact`, the `Example`s showing that a
  concrete non-trivial case meets the hypotheses, and `Print Assumptions`.
* `properties.jsonl`, `MANIFEST.json`, `_CoqProject` and `ASSUMPTIONS.md` are generated (`tools/`), so that every theorem named `Cnn_...` is
  listed once.

### Numbers
The C++ computes in IEEE binary64.  Code is written once over an abstract carrier (record `Num` of `Base.v`: literals, +, -, *, /,
opposite, square root, <, <=, ==, largest number) and instantiated
* at the real numbers `RNum`: theorems about exact arithmetic; rounding is *not* modelled there;
* at Coq's primitive binary64 floats `FNum` (round to nearest even, the arithmetic of the code without fused operations and without
  excess precision): theorems whose statement says binary64, and executable counterexamples;
* at the rationals `QNum`: executable examples only.
Pure comparison logic (segment search, sorting, windows, schedules) is proved for any carrier whose comparisons embed into a total
order (`Embeds`), with instances for R, Q and finite binary64 numbers.  Conversion of text to numbers (`std::stod`, ptree translators) is
always a parameter: the theorems hold for every conversion.

### Outcomes
`Ok v | Throw | UB`: a C++ exception (`ASSERT_THROW`, ptree errors) is `Throw`; out of bounds access, `back()` of an empty vector, null
dereference, use of an uninitialised variable, `% 0` are `UB`.  Debug-only `ASSERT`s are not checks.  Loops that may not end are modelled
with fuel or as relations, and non-termination is a theorem for every amount of fuel.

### Properties the code violates
The statement in `properties.jsonl` is what a user relies on, including known exceptions.  The model is faithful to the code; a theorem with
suffix `_refuted` is the negation of the universal statement and exhibits the violation; the other theorems prove what does hold, with
the condition that separates the two.  A theorem weaker than its claim would have the suffix `_partial`.

## 2. Trusted base

1. Coq's kernel (8.16.1), including its virtual machine (`vm_compute` and `<:` casts in examples) and its implementation of the
   primitive types `PrimInt63.int` and `PrimFloat.float` by the processor's arithmetic.
2. The axioms of the standard library listed by `Print Assumptions`; `ASSUMPTIONS.md` gives the list theorem by theorem.  They are
   * the reals: `ClassicalDedekindReals.sig_forall_dec`, `sig_not_dec`; `functional_extensionality_dep`;
   * excluded middle `Classical_Prop.classic` (theorems that use Flocq);
   * the primitive integers and floats and their specifications (`FloatAxioms`: `add_spec`, `sub_spec`, `mul_spec`, `div_spec`, `opp_spec`,
     `abs_spec`, `eqb_spec`, `ltb_spec`, `leb_spec`, `of_uint63_spec`, `ldshiftexp_spec`, `Prim2SF_valid`, `Prim2SF_SF2Prim`,
     `SF2Prim_Prim2SF`; `Uint63`: `add_spec`, `sub_spec`, `lsl_spec`, `lsr_spec`, `lor_spec`, `ltb_spec`, `leb_spec`, `eqb_correct`, `eqb_refl`, `of_to_Z`).
   No axiom is declared here; there is no section-less variable, no admitted proof, no functor or module type, no disabled check.
   Flocq (lemmas about rounding) is used as a library of proofs, Coquelicot for Riemann integrals (C75 and C77, `is_RInt`); they add no axiom of their own.
3. The model: that the definitions of `*Model.v` say what the C++ says.  They were written by reading the code, cite it line by line, and were
   exercised by seeded bugs (`seeded/LOG.jsonl`): every edit that makes a claim false has to break a theorem of that claim.
4. The libraries behind the code (next section) behave as documented where a model takes their result as an argument.

## 3. What is modelled and what is not

| Code | Model | Not modelled / arguments |
|------|-------|--------------------------|
| `ScanPath.cc` | ScanPathModel | waiting for the file to change; `stod` is a parameter |
| `Quaternion.cc` | QuaternionModel | rounding |
| `GoldakHeatSource`, `ElectronBeamHeatSource`, `CubeHeatSource`, `HeatSource.hh`, `BeamHeatSourceProperties.hh` | HeatSourceModel | rounding; lanes of a `VectorizedArray` are a list; `exp` is the real function |
| `material_deposition.cc` | DepositionModel, RefineModel (search) | ArborX boxes in single precision |
| `MaterialProperty.*`, point-wise parts of `ThermalOperator*.hh` | MaterialModel | assembly of the matrix by deal.II / Kokkos, scatter to the degrees of freedom |
| `validate_input_database.cc`, `Boundary.cc`, units of `types.hh` | InputModel | the INFO/JSON syntax read by boost; names with dots |
| `adamantine.hh` (`split_global_communicator`, files of an ensemble), `ensemble_management.cc` | EnsembleModel | MPI itself; the Mersenne twister (a stream of draws) |
| `Microstructure.cc` | MicrostructureModel | |
| `experimental_data_utils.cc`, `PointCloud.cc`, frames of the time loop | ExperimentModel | waiting for files, general regular expressions |
| `DataAssimilator.cc` and its use | AssimilationModel, CholeskyModel | GMRES (solution is an argument), ArborX search, normal variates; deal.II's Cholesky factorisation is modelled after its loops |
| `adamantine.hh` `run` | RunModel | the physics between the calls, 2^32 steps |
| `Geometry.cc` (constructor) | MeshModel | reading of mesh files; `subdivided_hyper_rectangle` and `GridTools::scale` as documented |
| `ThermalOperator.hh` (set_time), sources during a run | EnergyModel | activation and refinement during the run, losses, cube sources |
| `adamantine.hh` `run_ensemble`, `ThermalPhysics.templates.hh` (heat sources, `update_physics_parameters`), `BeamHeatSourceProperties.hh`, `CubeHeatSource.cc` (constructor) | MembersModel | physics and analysis (any functions); scan path contents |
| `ThermalPhysics.templates.hh` (activation, melted flags, checkpoints), `refine_and_transfer` | CellModel | `SolutionTransfer`, interpolation of the temperature on refined cells |
| `compute_cells_to_refine`, `refine_mesh` | RefineModel | single precision boxes |
| `MechanicalPhysics.cc` | MechModel (data), StressModel (plasticity), ElasticModel (constraints, matrix, right hand side, solve, sequence of solves) | iterates of the conjugate gradient method (any sequence; the residual test is modelled), hanging node constraints (arguments), rounding |
| `MechanicalOperator.cc`, `BodyForce.cc` | ElementModel, ElasticModel (global assembly) | shape functions and JxW (arguments); AMG preconditioner; body forces are arguments (the application passes none: gravity is never used) |
| `PostProcessor.cc` (von Mises, files) | StressModel, OutputModel | VTK writer |
| `adamantine.cc` (template parameters, main), `MaterialProperty::fill_properties` | MainModel | Kokkos, MPI start-up, Caliper, messages |
| `ThermalOperator*.templates.hh` (mass matrix, vmult, faces), `evaluate_thermal_physics`, `evolve_one_time_step` | HeatModel | shape functions, JxW and constraints (arguments), `FEEvaluation`, `AffineConstraints` and `ExplicitRungeKutta` as documented by deal.II, parallel sums, rounding |
| `ThermalOperator*.templates.hh` (`reinit`, `get_state_from_material_properties`, `set_material_deposition_orientation`, `update_inv_rho_cp_cell`) | LayoutModel | the batches of cells and faces and the colours of `MatrixFree` (arguments) |
| `ThermalOperator.templates.hh` (`compute_inverse_mass_matrix`, `vmult_add`) and `evaluate_thermal_physics_impl` on several processes | ParallelModel | the distribution, ghosts and `compress` of deal.II (arguments, as documented); messages |
| `MechanicalOperator.cc`, `MechanicalPhysics.cc` on several processes | ParallelElasticModel | as above; global vectors and products of the linear solver |
| `ClosestSourcePointAdaptation.hh` | AdaptModel | quadrature points (arguments) |
| `Timer.cc` and the timers of `adamantine.hh` | TimerModel | 64-bit overflow |
| `Geometry.cc`, initial activation and material | GeometryModel | mesh files, ArborX |
| `RayTracing.cc` | RayModel | ArborX (candidate lists), float boxes |

Not modelled at all: construction of meshes, shape functions and constraints by deal.II, Newton and Krylov iterations, the CUDA/HIP back ends beyond the point-wise device formulas, Caliper profiling, command line parsing, MPI message passing,
scheduling of threads.  Accuracy of the solution with respect to the partial differential equation cannot be expressed in this model;
stability of the time steps can (C78, C79).

## 4. Per property

The plan (what is modelled, how it is proved) and the outcome.  "Main theorems" are in `<X>Properties.v`; the complete list is in `MANIFEST.json`.

