#!/usr/bin/env python3
# Source of /verif/properties.jsonl (run: python3 tools/gen_props.py > properties.jsonl)
import json
P = []
def p(title, statement, quantifier, why, anchors):
    P.append(dict(id="C%02d" % (len(P)+1), title=title, statement=statement,
                  quantifier=quantifier, why_tests_cant=why, anchors=anchors))

p("Scan path answers do not depend on the query history",
  "For a scan path whose segment end times are nondecreasing, every position and power answered by a ScanPath object while it is queried at nondecreasing times (through any mix of value and get_power_modifier, saving the segment or not) equals the answer given by a freshly constructed object asked only that one question: the data of the first segment whose end time is not before the query time. If the query times may decrease the answer can differ.",
  "all segment lists with nondecreasing end times, all finite nondecreasing sequences of queries",
  "The object keeps a hidden cursor; a wrong answer needs a particular earlier history of queries, so no finite set of query sequences settles it.",
  ["source/ScanPath.cc: ScanPath::update_current_segment_info, ScanPath::value, ScanPath::get_power_modifier", "source/ScanPath.hh: ScanPath"])
p("Beam position moves along the scan path",
  "At every time inside a segment of positive duration the position returned by the scan path is the uniform-speed interpolation between the previous segment's end point and this segment's end point (the first segment stays at its own point): it lies on that straight line, equals the end point exactly at the end time, and is continuous across segment junctions.",
  "all scan paths, all times up to the last end time",
  "The claim ranges over a continuum of times and of end points.",
  ["source/ScanPath.cc: ScanPath::value, ScanPath::update_current_segment_info"])
p("Beam is off and parked after the end of the scan path",
  "For every time after the last end time the power modifier is 0 and the position is the parking point whose coordinates are all the lowest representable number, and asking never changes an earlier answer; with an empty segment list every query is undefined behaviour.",
  "all scan paths, all times after the last end time, any query history",
  "Quantifies over all times after the end and all histories.",
  ["source/ScanPath.cc: ScanPath::value, ScanPath::get_power_modifier"])
p("Segment-format scan path files yield consistent end times",
  "Loading a segment-format file either reports an error or yields one segment per path line in file order; a point segment lasts its stated dwell time, a line segment lasts exactly length/speed, the first line must be a point, unknown modes and fewer lines than announced are errors or a shorter list, and if dwell times are nonnegative and speeds positive the end times are nondecreasing.",
  "all sequences of file lines",
  "Files of every length and every order of line kinds must be covered; tests only read a few fixed files.",
  ["source/ScanPath.cc: ScanPath::load_segment_scan_path"])
p("Event-series scan path files delay the power column by one line",
  "Loading an event-series file yields one segment per line with that line's time and position, whose power is the power column of the previous line (0 for the first segment).",
  "all sequences of file lines",
  "Every number of lines and every power sequence.",
  ["source/ScanPath.cc: ScanPath::load_event_series_scan_path"])
p("Appending to a scan path file keeps the already simulated past",
  "When the scan path is re-read after lines were only appended, all answers for times up to the old end are unchanged and no query leaves the segment list; if the file was replaced by a shorter one, the remembered cursor can make the next query read out of bounds.",
  "all query histories before the re-read, all appended suffixes",
  "Combines an arbitrary history with an arbitrary file update.",
  ["source/ScanPath.cc: ScanPath::read_file, ScanPath::update_current_segment_info"])
p("Quaternion rotation is an invertible isometry",
  "For every unit quaternion rotate and inv_rotate are mutually inverse on all vectors, preserve dot products and norms, rotating by a product equals rotating successively, and q and -q rotate identically.",
  "all unit quaternions and all 3-vectors",
  "A continuum of rotations and vectors.",
  ["source/Quaternion.cc: Quaternion::rotate, Quaternion::inv_rotate, Quaternion::operator*"])
p("Five-axis orientation interpolation reaches both ends",
  "The orientation interpolated inside a segment is a unit quaternion, equals the start orientation at the segment start and the end orientation at its end, whenever the two orientations are distinct rotations; for two quaternions describing the same rotation with opposite signs the interpolation divides by zero.",
  "all pairs of unit quaternions, all times in the segment",
  "A continuum of orientations including degenerate pairs.",
  ["source/ScanPath.cc: ScanPath::get_quaternion", "source/Quaternion.cc: Quaternion::pow"])
p("Heat sources are nonnegative with bounded support",
  "Every Goldak source value is nonnegative, and both Goldak and electron-beam sources return exactly 0 below the penetration depth, outside the radial cutoff and whenever the beam power is zero or the scan path is over; the cube source is constant inside its box strictly between its start and end times and 0 elsewhere.",
  "all points, times, beam parameters with positive depth and radius",
  "Every point of space and every time.",
  ["source/GoldakHeatSource.cc: GoldakHeatSource::value", "source/ElectronBeamHeatSource.cc: ElectronBeamHeatSource::value", "source/CubeHeatSource.cc: CubeHeatSource::value"])
p("Vectorised and scalar heat source values agree",
  "For every batch of points the vectorised evaluation of a source returns, lane by lane, the scalar value at that lane's point. This holds for the cube source, and for Goldak and electron beam whenever no lane is outside the radial cutoff or all are; it fails when a batch mixes lanes inside and outside the cutoff.",
  "all batches of points of any width",
  "Depends on the combination of points that happen to share one SIMD batch.",
  ["source/GoldakHeatSource.cc: GoldakHeatSource::value", "source/ElectronBeamHeatSource.cc: ElectronBeamHeatSource::value", "source/CubeHeatSource.cc: CubeHeatSource::value"])
p("Source bounding boxes contain the beam they announce",
  "For a beam without five-axis motion the bounding box returned for a time and scaling is well formed and contains every point within the scaled radius and scaled depth of the beam position; with five-axis motion the box need not contain the rotated beam.",
  "all times, scalings, beams",
  "A continuum of positions and rotations.",
  ["source/HeatSource.hh: get_bounding_box", "source/GoldakHeatSource.cc: get_bounding_box", "source/ElectronBeamHeatSource.cc: get_bounding_box"])
p("Material deposition files are accepted only in time order",
  "Reading a material deposition file either fails or returns four lists of equal length, one entry per line, with nondecreasing times, boxes centred at the stated centre with the stated size, and the direction of the stated angle; it fails exactly when a time decreases or a line is malformed.",
  "all files",
  "Any number of lines and any order of times.",
  ["source/material_deposition.cc: read_material_deposition"])
p("Deposition along the scan path covers the powered path",
  "Boxes are produced only for powered segments, four lists of equal length are returned, deposition times lie in the segment's time range (never below 1e-10) and are nondecreasing along a segment, every point of a powered segment lies in a box of that segment, and the construction terminates for every positive deposition length when powered segments are horizontal and there are no rotations. It does not terminate on a powered vertical segment, with deposition length 0, or on five-axis paths where a rotation changes the distance between the end points.",
  "all scan paths and deposition parameters",
  "Every segment geometry and every ratio of box length to segment length.",
  ["source/material_deposition.cc: deposition_along_scan_path"])
p("Merging deposition paths sorts by time and loses nothing",
  "Merging the deposition lists of any number of beams returns a time-sorted sequence of (box, time, cos, sin) tuples that is a permutation of the concatenated input: no tuple is lost, duplicated or torn apart.",
  "all numbers of beams and all lists, including equal times",
  "All permutations and ties.",
  ["source/material_deposition.cc: merge_deposition_paths"])
p("Every deposition box inside the simulated time is activated",
  "Over a whole run with a fixed time step every deposition box whose time lies in [0, duration) falls in an activation window, provided the activation period does not exceed the time step or is a multiple of it; for other activation periods some boxes are skipped forever.",
  "all sorted deposition time lists, all time steps, durations and activation periods",
  "Depends on how an arbitrary list of times interleaves with an unbounded sequence of windows.",
  ["application/adamantine.hh: run", "application/adamantine.hh: run_ensemble"])
p("Material states always form a partition of unity and powder never reappears",
  "After every update of the material state from any temperature the solid, liquid and powder ratios of a point lie in [0,1], sum to 1 and the powder ratio has not increased, over any history of temperatures. The device update satisfies this at every point; the host update satisfies it only for single-lane batches: with wider batches every lane but the last keeps its old powder ratio and its ratios can sum to 2.",
  "all temperature histories, all batches, all solidus<liquidus",
  "Unbounded temperature histories and lane combinations.",
  ["source/ThermalOperator.templates.hh: update_state_ratios", "source/ThermalOperatorDevice.templates.hh: update_state_ratios", "source/MaterialProperty.templates.hh: update"])
p("Liquid fraction is the clamped linear melting law",
  "The liquid ratio is 0 below the solidus, 1 above the liquidus, linear in between, nondecreasing and continuous in temperature when solidus < liquidus; a material that leaves solidus and liquidus unset is never liquid; if solidus equals liquidus the value at that temperature is not a number.",
  "all temperatures and all solidus/liquidus pairs",
  "A continuum of temperatures.",
  ["source/MaterialProperty.templates.hh: update", "source/ThermalOperator.templates.hh: update_state_ratios"])
p("Table properties are clamped piecewise-linear interpolation",
  "A property given as a table of up to 11 rows evaluates to linear interpolation between neighbouring rows and to the first/last value outside, so it is continuous and stays between the smallest and the largest tabulated value; a full table of 12 rows returns the last value on its whole last interval (so it jumps at the last row but one). A table with more rows or an unparsable number is rejected.",
  "all temperature-sorted tables and all temperatures",
  "All table sizes, contents and temperatures.",
  ["source/MaterialProperty.templates.hh: compute_property_from_table", "source/MaterialProperty.templates.hh: fill_properties"])
p("Property evaluation is the state-ratio weighted mean and agrees on host and device",
  "The value of a state property is the sum over states of ratio times polynomial/table value; the host evaluation through precomputed powers and the device evaluation through pow give the same value, and with ratios in [0,1] summing to 1 the result stays between the per-state values.",
  "all polynomial coefficients, ratios and temperatures",
  "All coefficients and temperatures.",
  ["source/MaterialProperty.hh: compute_material_property", "source/ThermalOperatorDevice.templates.hh: compute_material_property"])
p("Cell state stored from quadrature points is their mean and stays a partition of unity",
  "Writing quadrature-point ratios back to cells stores their arithmetic mean in every locally owned cell and leaves the cell's ratios a partition of unity whenever those of the points are; spreading the cell ratios over the quadrature points and writing them back changes nothing; the device version agrees with the host version on activated cells and leaves the other cells alone; the initial state set from a cell's user index is a partition of unity, and an index that is not a state of the material model is an out-of-bounds access.",
  "all cell lists, activity patterns and ratios",
  "Any number of cells and any activity pattern.",
  ["source/MaterialProperty.templates.hh: set_state, set_state_device"])
p("Radiative boundary flux is the Stefan-Boltzmann law",
  "The boundary term with the linearised radiation coefficient equals emissivity*sigma*(T^4-Tinf^4) plus h*(T-Tinf) for every temperature; it is zero at equilibrium and always drives the temperature towards the ambient one.",
  "all temperatures and ambient temperatures",
  "A continuum of temperatures.",
  ["source/ThermalOperator.templates.hh: face_local_apply", "source/MaterialProperty.templates.hh: update"])
p("Host and device agree on when latent heat applies",
  "For solid/liquid materials the host and the device add latent heat for exactly the same state ratios; with powder they agree except when liquid and powder are present without solid. In particular, while fresh powder melts the host never adds latent heat and the device always does.",
  "all state ratios",
  "All ratios.",
  ["source/ThermalOperator.templates.hh: get_inv_rho_cp", "source/ThermalOperatorDevice.templates.hh: get_inv_rho_cp"])
p("Anisotropic conduction is symmetric and dissipative",
  "For every deposition angle the heat flux operator applied to a temperature gradient is a symmetric tensor with the material conductivities as its eigenvalues along and across the deposition direction, so conduction never moves heat against the gradient.",
  "all gradients, angles and nonnegative conductivities",
  "A continuum of gradients and angles.",
  ["source/ThermalOperator.templates.hh: cell_local_apply"])
p("Input validation accepts exactly the documented inputs it checks",
  "validate_input_database either throws or the database satisfies the documented constraints it is meant to enforce (dimension 2 or 3, known physics, known boundary types, boundary conditions for each physics, known deposition method, beam parameters in range, fe degree 1..5, ...). Exceptions in the code: adiabatic may be combined with radiative/convective in one of the two orders, deposition from file is always rejected, and unit names are compared ignoring case while the conversion table is not.",
  "all input databases",
  "All property trees.",
  ["source/validate_input_database.cc: validate_input_database", "source/utils.hh: g_unit_scaling_factor"])
p("Boundary condition lines give every boundary id its declared type",
  "Parsing the boundary section gives every boundary id the union of the flags named on its own line, or on the default line when it has none; the printed-surface line sets the type used for internal faces of the activated domain; unknown names are undefined behaviour unless validated.",
  "all boundary databases and id sets",
  "All subsets of ids and orders of names.",
  ["source/Boundary.cc: Boundary::Boundary, parse_boundary_line", "source/Boundary.hh: get_boundary_type"])
p("Ensemble members are distributed without loss or overlap",
  "Splitting processes over ensemble members assigns every member to exactly one process group and every process to exactly one group; when there are more processes than members every group has the same number of processes or the split is refused.",
  "all process counts and ensemble sizes",
  "All pairs of process count and ensemble size.",
  ["application/adamantine.hh: split_global_communicator"])
p("Ensemble restart reloads the member that was checkpointed",
  "Every ensemble member restarts from the file that the same global member wrote. True with a single process group; false for every group other than the first, which reloads another group's members.",
  "all process-group layouts and members",
  "All layouts.",
  ["application/adamantine.hh: run_ensemble"])
p("Random ensemble parameters are nonnegative and reproducible across partitions",
  "Every drawn parameter is nonnegative, and when no draw is rejected the value for a global member does not depend on how members are split over processes; with rejections different groups can give the same draw to different members.",
  "all random streams, all partitions",
  "All random streams and partitions.",
  ["source/ensemble_management.cc: get_normal_random_vector, traverse, create_database_ensemble"])
p("Bounding heat sources bound every ensemble member",
  "The refinement heat sources of an ensemble have a diameter and depth at least as large as those of every member. True for the diameter; the depth is read from the diameter entry and so may be too small.",
  "all ensembles of beam parameters",
  "All ensembles.",
  ["source/ensemble_management.cc: get_bounding_heat_sources"])
p("Cooling rate and solidification records",
  "A point is recorded exactly when its temperature crosses the liquidus downwards in the step; the recorded cooling rate should be the temperature drop divided by the time step, but the code subtracts new/dt from old.",
  "all temperature fields and time steps",
  "All fields.",
  ["source/Microstructure.hh: compute_G_and_R"])
p("Camera log parsing keeps exactly the requested frames",
  "Reading the frame log returns per camera the time stamps, shifted by the offset, of exactly the lines whose frame number lies in the requested range, in file order; the announced consecutiveness check never fires.",
  "all log files, frame ranges and offsets",
  "All logs.",
  ["source/experimental_data_utils.cc: read_frame_timestamps"])
p("Every experimental frame is assimilated once and in order",
  "When frame times are separated by more than a time step, each frame is assimilated exactly once, in order, at the first step whose time reaches the frame time; two frames within one step abort the run; after a restart the reader starts again from the first frame.",
  "all frame time lists and time steps",
  "All interleavings of frame times with steps.",
  ["application/adamantine.hh: run_ensemble", "source/PointCloud.cc: read_next_frame"])
p("Localisation function is the Gaspari-Cohn taper",
  "The covariance taper is 1 at zero distance, 0 from twice the half-width on, continuous, nonincreasing and within [0,1].",
  "all distances",
  "A continuum of distances.",
  ["source/DataAssimilator.cc: gaspari_cohn_function"])
p("Ensemble covariance is symmetric positive semidefinite",
  "The sample covariance computed from any ensemble of at least two members is symmetric, has nonnegative diagonal and is positive semidefinite, is zero for identical members, and equals the textbook unbiased estimator; localisation multiplies entries by a factor in [0,1] and keeps the diagonal; cutting entries off beyond a distance (step localisation, which also happens without localisation) can lose positive semidefiniteness, and the entries are misplaced if the degrees of freedom are not numbered in cell order.",
  "all ensembles, dimensions",
  "All ensembles.",
  ["source/DataAssimilator.cc: calc_sample_covariance_sparse"])
p("Observation operator and innovation agree",
  "Applying the observation operator as a matrix or directly gives, for each experimental point, the simulated value at its mapped degree of freedom; the innovation is observation plus perturbation minus that value.",
  "all mappings and states",
  "All mappings.",
  ["source/DataAssimilator.cc: calc_H, calc_Hx, update_ensemble"])
p("Gathering and scattering the ensemble is lossless",
  "Gathering all members to the assimilating process and scattering them back without update restores every member on the group that owns it, for any distribution of members.",
  "all distributions of members and degrees of freedom",
  "All distributions.",
  ["source/DataAssimilator.cc: update_ensemble"])
p("The time loop ends exactly at the requested duration",
  "With a positive time step and a finite duration the simulation takes finitely many steps, times strictly increase, each step but the last has the requested size and the last one ends exactly at the duration (exact arithmetic); with a zero time step or a mechanical-only run it never ends.",
  "all positive time steps and durations",
  "Unbounded numbers of steps.",
  ["application/adamantine.hh: run", "application/adamantine.hh: run_ensemble", "source/ThermalPhysics.templates.hh: evolve_one_time_step"])
p("Output, checkpoint and refinement happen on schedule",
  "Outputs happen at step 0 and at exactly the steps divisible by the output period, refinement at step 1 and the steps divisible by its period, checkpoints at the steps divisible by the checkpoint period, the mechanical problem is solved at every output step; a zero period is undefined behaviour.",
  "all periods and run lengths",
  "Unbounded runs.",
  ["application/adamantine.hh: run"])
p("Restart continues the interrupted run",
  "Restarting from a checkpoint continues with the same sequence of times and step numbers as the uninterrupted run; the restart reads the time file without the output directory it was written to, and restarts the activation window.",
  "all crash points and checkpoint periods",
  "Every crash point.",
  ["application/adamantine.hh: run"])
p("A growing scan path ends the simulation when it is finished",
  "With duration taken from the scan path the run should end when every scan path is finished; the code sets the duration only if all paths were finished at start-up, and then to the earliest of their ends, so a path completed later never ends the run and longer paths are cut short.",
  "all scan path histories",
  "All histories of file updates.",
  ["application/adamantine.hh: run"])
p("Activating material preserves the existing solution",
  "Activating cells keeps the degree-of-freedom values, material state, deposition direction and melted flag of every previously active cell, gives new cells the new-material temperature and the direction of the box that activates them, and activates exactly the inactive cells of the boxes in the window.",
  "all meshes (cell lists), activity patterns and windows",
  "All activity patterns.",
  ["source/ThermalPhysics.templates.hh: add_material_start, add_material_end", "source/material_deposition.cc: get_elements_to_activate"])
p("Checkpoint data survives the save/load round trip",
  "Loading a checkpoint restores for every cell the material state, the activity, and for active cells the deposition direction and melted flag that were saved.",
  "all cell lists and activity patterns",
  "All states.",
  ["source/ThermalPhysics.templates.hh: save_checkpoint, load_checkpoint"])
p("Melted flags are sticky",
  "Once a cell is marked as melted it stays marked, and after any history a cell is marked iff it was marked initially or some recorded temperature field exceeded the threshold in it.",
  "all histories of temperature fields",
  "Unbounded histories.",
  ["source/ThermalPhysics.templates.hh: mark_has_melted"])
p("Plastic return mapping is consistent",
  "After every stress update the deviatoric effective stress lies on or inside the updated yield surface, volumetric stress is untouched by plasticity, the yield radius never shrinks for nonnegative hardening; this holds for purely isotropic hardening but not with kinematic hardening because the back stress is updated with the squared plastic modulus.",
  "all strain increments and states",
  "A continuum of strain paths.",
  ["source/MechanicalPhysics.cc: compute_stress"])
p("Mechanical state transfer round trip",
  "Packing and unpacking plastic variables and stresses for mesh transfer restores every value of every locally owned cell.",
  "all numbers of cells and quadrature points",
  "All sizes.",
  ["source/MechanicalPhysics.cc: prepare_transfer_mpi, complete_transfer_mpi"])
p("Mechanical activity follows solid material",
  "After every setup a cell takes part in the mechanical problem iff its solid ratio exceeds 0.99 and it is active thermally; unchanged cells keep stress, newly solid cells start stress free with the elastic limit.",
  "all histories of states and activities",
  "Unbounded histories.",
  ["source/MechanicalPhysics.cc: setup_dofs"])
p("Element stiffness is symmetric positive semidefinite",
  "The element stiffness matrix is symmetric and its energy is lambda*(div u)^2+2*mu*strain:strain summed over quadrature points, hence nonnegative, for all shape gradients.",
  "all shape function gradients and quadrature weights",
  "All elements.",
  ["source/MechanicalOperator.cc: assemble_matrix"])
p("Von Mises output",
  "The von Mises value of a point should be sqrt(3/2) times the norm of the stress deviator; it is exactly if the xz and yz shear stresses have the same magnitude, because the code squares the yz component twice (pure xz shear is written as zero); the value of a cell is the average over its points, zero for cells that take no part and for all cells in two dimensions.",
  "all stress tensors",
  "All tensors.",
  ["source/PostProcessor.cc: get_von_mises_stress"])
p("Source point adaptation picks the nearest quadrature point",
  "When a cell is refined every quadrature point of every child receives the value of the first nearest quadrature point of the parent; when it is coarsened every point of the parent receives the value of the first nearest point among all children. In floating point, distances that are NaN or overflow are passed over, and the behaviour is undefined when no distance is usable. Refining and coarsening back restores the values when the nearest points correspond, and may lose values otherwise.",
  "all value types, dimensions, point sets and stored values, NaN and infinite coordinates included",
  "The number, order and position of the points are arbitrary; ties and NaN only show on special point sets.",
  ["source/ClosestSourcePointAdaptation.hh"])
p("Timers accumulate exactly the started intervals",
  "The reading of a timer is the sum, over the stops no reset follows, of the time since the last start before each of them; starting twice discards the first start; only rank 0 prints, whole milliseconds rounded down. In an ensemble run every timer's sections are well nested, no reading exceeds the main timer's, nested timers do not exceed the enclosing one, and the covariance-sparsity timer (started twice, never stopped) always reads zero.",
  "all start/stop/reset histories, clocks, and sequences of time steps of the ensemble driver",
  "Histories and schedules are unbounded.",
  ["source/Timer.cc", "source/Timer.hh", "application/adamantine.hh run_ensemble"])
p("STL files are parsed facet by facet",
  "Reading a binary STL either fails or returns exactly the announced facets, scaled, and the bounding box contains all their vertices; truncated files fail.",
  "all byte strings",
  "All files.",
  ["source/Geometry.cc"])
p("A ray is stopped by the first face it meets",
  "For every ray the reported point is the intersection of the ray with the nearest face of the candidate cells (those the search returns on the process of the first candidate), with the value of the ray; a ray that meets none of them gives no point and no ray is reported by two processes. In a mesh of boxes a ray from outside is stopped exactly where it enters the first box. Candidates on other processes, and rays written with a short direction vector, may be lost.",
  "all rays, cells with flat faces, distributions over processes and candidate lists",
  "All rays, faces and process counts.",
  ["source/RayTracing.cc: get_points_values, point_in_triangle, read_next_frame", "source/Ray.hh"])
p("Exactly the inactive cells met by a deposition box are candidates for activation",
  "For every deposition box the list of cells to activate contains exactly the locally owned inactive cells (inside the STL part when one is given) whose bounding box meets the deposition box; there is one list per box, in the order of the boxes.",
  "all meshes and box lists",
  "All meshes and all boxes.",
  ["source/material_deposition.cc: get_elements_to_activate"])
p("Point-cloud frames are read row by row, camera by camera",
  "Reading a frame returns, for every camera in order, one sample per line after the header: the coordinates are the first non-empty fields, the value is the last field after them, missing numbers are 0; the file names are the pattern with every #camera and #frame replaced.",
  "all files, patterns, cameras and frames",
  "All file contents and all patterns.",
  ["source/PointCloud.cc: read_next_frame"])
p("Observations are attached to mesh nodes consistently on all processes",
  "Every locally owned node is listed once with its position; every observation is mapped to the node found by the nearest-neighbour search and all processes obtain the same mapping; writing the observations changes exactly the mapped nodes, the last observation wins; without any node it reads out of bounds.",
  "all meshes, distributions of nodes and observations",
  "All distributions of nodes over processes.",
  ["source/experimental_data_utils.cc: get_dof_to_support_mapping, get_expt_to_dof_mapping, set_with_experimental_data"])
p("Assimilation adds the Kalman gain applied to the innovation",
  "Every member of the updated ensemble is the forecast plus P H^T (H P H^T + R)^-1 applied to its perturbed innovation, provided the linear solver is exact; with a positive observation uncertainty and the unlocalised covariance the system has a unique solution and the update moves the observed values towards the observations; without uncertainty or with a truncated covariance the system may be singular; the data must have as many values as the mapping.",
  "all ensembles, observation mappings, perturbations and uncertainties",
  "A continuum of ensembles and all sizes.",
  ["source/DataAssimilator.cc: update_ensemble, apply_kalman_gain", "application/adamantine.hh: run_ensemble"])
p("Augmented beam parameters are read from and put back into the same entries",
  "The parameters chosen for augmentation are read from the first beam of every member and after an update written back to the entries they were read from, leaving all other entries alone; with augmentation but without beams the program reads a missing entry.",
  "all selections of parameters and all values",
  "All selections and values.",
  ["application/adamantine.hh: run_ensemble"])
p("Mesh adaptation follows the beams and keeps the cell data",
  "A cell is flagged for refinement iff it is below the finest level and the box of a heat source (scaled by two) meets it at one of the sampled times, for coarsening iff asked for, refined and met by none; the samples are the starts of the coming time steps, so a cell only passed in between is missed; after adaptation every cell has the state, direction and melted flag of the cell it comes from (the first child when coarsened).",
  "all meshes, levels, heat sources, histories and distributions over processes",
  "All meshes, levels and beam motions.",
  ["application/adamantine.hh: compute_cells_to_refine, refine_mesh, refine_and_transfer"])
p("Thermal load and weight",
  "The thermal load does the work (3 lambda + 2 mu) alpha (T - T_ref) div v, so that a free expansion by alpha (T - T_ref) balances it in three dimensions and the plane strain expansion in two; the reference temperature is that of the material once the cell has melted and the initial one before; the gravity load adds up to the weight, downwards.  The stress computed for a free expansion is not zero, because the thermal strain is not subtracted.",
  "all elements, shape functions, temperatures, material parameters, activities and melting histories",
  "All elements and temperature fields.",
  ["source/MechanicalOperator.cc: assemble_rhs", "source/BodyForce.cc", "source/MechanicalPhysics.cc: compute_stress"])
p("Displacements survive changes of the active cells",
  "When cells solidify or melt, the displacement of the previous solve, from which strain increments are computed, is kept at every degree of freedom all of whose active cells (on the process that owns it) took part before; a degree of freedom shared with a newly solid cell is kept or reset to zero according to the last such cell in the order of the mesh.",
  "all meshes, activities, distributions over processes and displacements",
  "All meshes and activation patterns.",
  ["source/MechanicalPhysics.cc: setup_dofs"])
p("Cells of an STL part are found by the side of the nearest triangle",
  "With an STL part only cells that no triangle meets and whose centre is inside the part may be activated: cells cut by the surface are refused, centres inside a convex part are accepted, for a box the answer is exact, and centres outside the part are refused.",
  "all surfaces, cells and answers of the nearest-triangle search",
  "A continuum of parts and positions.",
  ["source/Geometry.cc: is_within_stl, InsideCallBack"])
p("The initial material is solid, then powder, then nothing",
  "At the start the cells below the powder layer are solid, those in the layer powder, and those above the material height are inactive; without powder everything is solid; every active cell, and no other, has an initial direction and is not melted.",
  "all meshes, heights and layers",
  "All meshes and heights.",
  ["source/Geometry.cc: assign_material_state", "source/ThermalPhysics.templates.hh: ThermalPhysics"])
p("Output files are distinct, complete and refer to each other",
  "Every output of a simulation has one .vtu file per process and one .pvtu file listing exactly these; at the end the .pvd file lists all outputs with their times in order; no file of a run, of an ensemble or of the experimental data overwrites another; a viewer that opens the .pvd file finds every piece, and all files are below the output directory.",
  "all prefixes, directories, numbers of processes, lists of outputs, ensembles, interruptions and restarts",
  "All names, all histories of outputs, interruptions and restarts.",
  ["source/PostProcessor.cc: PostProcessor, write_pvtu, write_pvd", "application/adamantine.cc: main (output-dir)", "application/adamantine.hh: output_pvtu"])
p("Output fields are the strain and the state ratios",
  "The strain written is the symmetric part of the displacement gradient, every entry is written and it is exactly symmetric; the powder, liquid and solid fields are the ratios of each locally owned cell, zero for states the material does not have and for other cells.",
  "all gradients, dimensions, meshes, ownerships and states",
  "All gradients and all partitions of the mesh.",
  ["source/PostProcessor.hh: StrainPostProcessor::evaluate_vector_field, material_dataout", "source/MaterialProperty.templates.hh: reinit_dofs"])
p("Material properties are stored as given",
  "The polynomial order chosen is the smallest that holds every property given and the states are those used, so that no readable property is refused; every thermal property of every state is the table or the polynomial of the input, mechanical properties are the first value given for the solid, and absent properties are zero (infinite for the elastic limit, the largest number for the values of the material).  Mechanical properties do not follow their table.",
  "all material databases, formats, states, properties and readers of numbers",
  "All combinations of materials, states and properties present or absent.",
  ["application/adamantine.cc: get_material_template_parameters", "source/MaterialProperty.templates.hh: fill_properties", "source/types.hh"])
p("The program runs the simulation asked for",
  "For a valid input with one material exactly one simulation is started, with the dimension, memory space, ensemble mode, polynomial order and states of the input, and the exit status is 0 if and only if it ends normally; ensembles on the device and polynomials of more than five coefficients end with status 1.  Inputs with several materials run nothing, and refused inputs end with status 0.",
  "all command lines, inputs and outcomes of the simulation",
  "All inputs.",
  ["application/adamantine.cc: main", "source/instantiation.hh: ADAMANTINE_N_MATERIALS"])
p("The heat released and lost is the heat gained",
  "The rate of change of the temperature solves the weak form of the heat equation tested with every field; what the integral of the temperature gains is what the sources release minus what the boundary of the active domain loses, so that with one heat capacity each time step, and a run of any number of steps, adds exactly the heat input of its stages, and without sources and losses nothing changes.  The heat input that is printed is the integral of the power.",
  "all meshes with hanging nodes, quadratures, temperatures, material laws, sources, boundary conditions, schemes and time steps",
  "A continuum of temperatures and laws on all meshes.",
  ["source/ThermalOperator.templates.hh: vmult_add, cell_local_apply, face_local_apply, compute_inverse_mass_matrix", "source/ThermalPhysics.templates.hh: evaluate_thermal_physics_impl, evolve_one_time_step"])
p("Conduction evens temperatures out",
  "A uniform temperature (equal to the ambient one where heat is exchanged) does not change, in any number of steps; without sources and losses the mass-weighted square of the temperature never increases; with coefficients that do not depend on the temperature conduction is symmetric; entries of hanging nodes are not used; the nodal masses sum to the volume.",
  "all meshes, temperatures, anisotropic conductivities and deposition angles",
  "A continuum of temperatures on all meshes.",
  ["source/ThermalOperator.templates.hh: cell_local_apply, cell_local_mass, compute_inverse_mass_matrix"])
p("Heat leaves through the boundary of the active material only",
  "A face exchanges heat exactly when one side is active and the other is inactive or outside; it is evaluated on the active side; skipping all faces when every boundary is adiabatic does not change the result, if no boundary is declared both adiabatic and convective or radiative.",
  "all meshes, activation states, boundary conditions and temperatures",
  "All activation states and combinations of conditions.",
  ["source/ThermalOperator.templates.hh: face_local_apply, vmult_add, ThermalOperator", "source/Boundary.cc"])
p("Time steps are those of the method asked for",
  "Every method accepted by the validation gives a time stepping scheme and a step ends at the time plus the time step; other methods are not usable.  The stages are weighted with nonnegative weights of sum one; exponential decay is reproduced up to the order of the method and powers of the time below the order are integrated exactly.",
  "all right-hand sides, states, times and time steps",
  "A continuum of right-hand sides.",
  ["source/ThermalPhysics.templates.hh: ThermalPhysics, evolve_one_time_step", "source/ThermalOperator.hh: set_time"])
p("Host and device compute the same rates",
  "With adiabatic boundaries the device computes the same rates as the host at every node whose mass exceeds 1e-15, with sources on or off; at other nodes it computes zero; other boundary conditions are refused.",
  "all meshes, temperatures, material laws and sources",
  "A continuum of temperatures on all meshes.",
  ["source/ThermalPhysics.templates.hh: evaluate_thermal_physics_impl", "source/ThermalOperatorDevice.templates.hh: compute_inverse_mass_matrix, vmult_add"])
p("The displacement balances the loads",
  "A displacement that a solve returns satisfies the principle of virtual work for every virtual displacement, up to 1e-12 of the size of the thermal load and the body forces; it vanishes on clamped boundaries and is continuous at hanging nodes.  The system matrix is symmetric and positive semi-definite, with rigid displacements as kernel; exact solutions have the same strain and the computed one is close to them in energy.  A free body expands freely (plane strain in two dimensions), and without load nothing moves.  No solve with a temperature is undefined behaviour.  Systems of fewer than ten unknowns are never solved, and runs without a thermal problem are undefined behaviour.",
  "all meshes with hanging nodes and clamped faces, activities, elastic parameters, temperatures, histories of melting, body forces and iterates of the linear solver",
  "A continuum of loads on all meshes, and all behaviours of the linear solver.",
  ["source/MechanicalPhysics.cc: setup_dofs, update_rhs, solve", "source/MechanicalOperator.cc: assemble_system, assemble_rhs, update_temperature", "application/adamantine.hh: run"])
p("The stress is in equilibrium while the material is elastic",
  "After any sequence of solves none of which reaches the yield limit, the stress is the elastic stress of the last displacement, it balances the last load up to 1e-12, and without its thermal part it balances the body forces; the displacement depends on the last load only.  Once the material yields, the stress misses the load by exactly the work of the plastic correction, because there is no second solve.  Over any history, from any state, what the stress misses is what it missed at the start and what the corrections took; nothing of it is given back.  A cell that solidifies next to solid ones gets stress zero at a displacement that is not zero, so equilibrium is lost without any yielding.  Repeating a solve changes nothing for isotropic hardening; for kinematic hardening it does.",
  "all meshes, sequences of loads, elastic and plastic parameters and initial states",
  "All histories of loads.",
  ["source/MechanicalPhysics.cc: solve, compute_stress", "application/adamantine.hh: run"])
p("Every ensemble member runs with its own sources and its last analysis",
  "The heat sources of a member are the entries of its own database in SI units.  With data assimilation every member moves, in each pass, with these sources in which the chosen parameters of beam 0 have the values of its last analysis, whatever they are; writing them to the database and reading them back adds nothing.  Without assimilation the sources never change and a member depends on its own entries only; a restart then goes on as if the run had not stopped.  Uncertain entries other than those of sources, units, time_stepping, the material height and the initial and new material temperatures have no effect: all members are the unperturbed simulation.  A restart uses the saved states with the parameters of the input, not those of the last analysis.  The data file of a member lists the values it started with.",
  "all input databases, numbers of members and beams, draws, physics, analyses and sequences of passes",
  "All histories of analyses and all inputs.",
  ["application/adamantine.hh: run_ensemble", "source/ThermalPhysics.templates.hh: ThermalPhysics, update_physics_parameters", "source/BeamHeatSourceProperties.hh: set_from_database", "source/ensemble_management.cc: create_database_ensemble"])
p("The heat a beam deposits is the absorbed power",
  "On material below its plane that is wider than sqrt(5) radii and deeper than its depth, a Goldak beam deposits between 98.5 and 98.6 percent of efficiency * power * power modifier, and an electron beam all but one part in 100000, whatever their diameter and depth; the heat up to any height is given exactly.  Material above the plane breaks this: a Goldak beam deposits almost twice the absorbed power in material that reaches one depth above its plane, an electron beam takes heat away from material that reaches further.  In two dimensions the heat per unit of thickness is inversely proportional to the diameter of the beam.",
  "all beams, scan paths, times and extents of the material",
  "An integral over a continuum of points for a continuum of beams.",
  ["source/GoldakHeatSource.cc: update_time, value", "source/ElectronBeamHeatSource.cc: update_time, value", "source/BeamHeatSourceProperties.hh: set_from_database"])
p("The mesh is the box asked for",
  "Without a mesh or a part from a file the mesh is the box of the sizes given from the origins given (0), cut into the divisions given (10): its cells fill the box without overlap, have equal volumes and are as many as the product of the divisions.  A face of a cell has a boundary id exactly on the sides of the box, 0 and 1 along the length, then the next axis (2, 3) and in three dimensions 4 and 5 for the height; other faces are shared with the next cell.  The material at the start is a slab of whole layers of cells whose height is within half a cell of material_height, and the powder on top of it is within one cell of powder_layer.  A mesh from a file is scaled with the unit of meshes and keeps its material ids unless reset.  The unit does not apply to a generated mesh; an unknown unit collapses an imported mesh; divisions that cannot be read are replaced by 10, negative ones wrap around and zero is undefined behaviour, all accepted by the validation.",
  "all input databases, sizes, divisions, points of the box, cells and material heights",
  "A continuum of points and sizes and all numbers of cells.",
  ["source/Geometry.cc: Geometry, assign_material_state", "source/types.hh: g_unit_scaling_factor", "source/ThermalPhysics.templates.hh: get_state_from_material_properties, setup"])
p("A run delivers the energy of the scan paths",
  "For every explicit scheme, every sequence of time steps of at most h and every set of Goldak and electron beams whose segments end at increasing positive times: the energy that the beams deliver at the evaluations of the run differs from absorbed power times power modifier times duration, summed over the segments up to the end of the run, by at most h times absorbed power times the jumps of the modifier.  In an adiabatic part with one heat capacity the heat content of the temperature field grows by just this energy, up to the error with which the mesh integrates the beams.  A flash between two evaluations is missed whatever its power, and a flash at the start, however short, counts as a sixth of a time step at least.",
  "all schemes, time steps, beams, scan paths, meshes and temperatures",
  "All sequences of time steps and all paths.",
  ["source/ThermalOperator.hh: set_time", "source/ThermalPhysics.templates.hh: evaluate_thermal_physics, evolve_one_time_step", "source/ScanPath.cc: get_power_modifier", "source/GoldakHeatSource.cc: update_time", "source/ElectronBeamHeatSource.cc: update_time"])
p("Time steps below the limit are stable",
  "Without sources and radiation, with laws that do not depend on the temperature: if no field exchanges heat faster than a rate lam and the product of time step and lam is at most 1.99 (forward Euler), 2.5 (third order) or 2.75 (fourth order), a step never increases the deviation from the temperature of the air (any temperature if no heat can leave), measured with the masses of the nodes; over any number of steps of any lengths below the limit every node stays within a bound given by the initial temperatures, and the deviation decays exponentially if every field exchanges heat at some least rate.  Such a rate lam always exists; it follows from the rows of the operator or cell by cell, with hanging nodes; for linear elements on boxes with edges of at least h and diffusivity alpha it is 4 alpha / h^2 (8 or 12 with Gauss-Lobatto points).  A mode is multiplied by the Taylor polynomial in every step; with 3/lam all three schemes blow up on a square.",
  "all meshes with hanging nodes, laws, temperatures, schemes, time steps and numbers of steps",
  "All numbers of steps, meshes and temperature fields.",
  ["source/ThermalPhysics.templates.hh: evolve_one_time_step, evaluate_thermal_physics", "source/ThermalOperator.templates.hh: vmult_add, compute_inverse_mass_matrix, cell_local_apply, face_local_apply"])
p("Conduction and convection do not overshoot",
  "Without sources and radiation, if the operator takes heat from a node only in favour of colder ones and a time step takes from no node more than it has, a step of any of the explicit schemes leaves every temperature, those of hanging nodes included, between the smallest and the largest of the temperatures before the step and of the air; so does any number of steps of any such lengths.  With forward Euler the laws may depend on the temperature.  The condition holds for isotropic materials in insulated meshes of linear elements without hanging nodes: cubes with the Gauss points if the step is at most 3/8 h^2 / alpha, boxes of any shape with the Gauss-Lobatto points if it is at most h^2 / (6 alpha) (4 in two dimensions).  On a rectangle twice as long as wide with the Gauss points, which are the default, a step of any length makes a node colder than everything was.",
  "all meshes, laws, temperatures, schemes, time steps and numbers of steps",
  "All temperature fields, meshes and numbers of steps.",
  ["source/ThermalPhysics.templates.hh: evolve_one_time_step, evaluate_thermal_physics", "source/ThermalOperator.templates.hh: vmult_add, compute_inverse_mass_matrix, cell_local_apply, face_local_apply"])
p("What an analysis does to mean and spread",
  "An analysis of at least two members always completes.  With an exact solver the mean of the members moves by the Kalman gain applied to the observations (plus the mean perturbation) minus the mean, and without localisation it is afterwards not farther from them.  Entries on which all members agree are never changed, whatever the localisation and the solver return, and without localisation neither are linear relations that all members satisfy.  Without localisation the spread in every direction is that of the Kalman filter if the perturbations have over the members the covariance of the observations; with equal perturbations it never grows and is at most a quarter of the variance of an observation where there is one.  The systems are solvable when the uncertainty is not zero.  With the step function the spread can grow, and an updated absorption efficiency can leave [0,1].",
  "all ensembles, observations, draws, localisations, directions and distributions over the ranks",
  "All ensembles of any size and all observations.",
  ["source/DataAssimilator.cc: update_ensemble, apply_kalman_gain, calc_sample_covariance_dense, calc_sample_covariance_sparse, fill_noise_vector", "application/adamantine.hh: run_ensemble"])
p("Correlated observation errors",
  "A symmetric positive definite covariance matrix of the observations that is not stored as diagonal is factored into L L^T with the unique lower triangular factor of positive diagonal, reading nothing above the diagonal, and the perturbations of a member are L times its draws; for a diagonal matrix they are those of the diagonal case, and with the diagonal case the analysis is the one of the program.  Whatever is factored is a covariance and is the product of its factor; other matrices end in an exception, and so does the zero matrix.  For positive definite matrices the analysis always completes.  Standard draws give perturbations with the covariance R over the members and without correlation with the states, and then the spread after an exact analysis without localisation is that of the Kalman filter for R in every direction.",
  "all covariance matrices of any size, draws, ensembles, observations and directions",
  "All sizes and a continuum of matrices and ensembles.",
  ["source/DataAssimilator.cc: fill_noise_vector, update_ensemble, calc_kalman_gain"])
p("Convection and radiation do not overshoot",
  "Without sources, a forward Euler step with convection and radiation leaves every temperature between the smallest and the largest of the temperatures before the step and of the surroundings (air and radiation may have different temperatures, different on each face), if the operator with the coefficient h + emissivity sigma (T + Tr)(T^2 + Tr^2) on the boundary takes heat from a node only in favour of colder ones and the step takes from no node more than it has; it suffices that this holds with 4 hi^3 for the radiation.  So does any number of steps, with laws that change.  On boxes of any shape with the Gauss-Lobatto points, with conductivities (along the axes, or equal in the horizontal plane), heat capacities and coefficients that may depend on the point and on the temperature, any number of steps of at most 1 / (6 (alpha/h^2 + g/h)) (4 in two dimensions) stays between the extremes, where g is the largest loss per degree.  The limit of conduction alone is not enough: a radiating square falls below its surroundings in one step.",
  "all meshes, laws, temperatures, boundary conditions, time steps and numbers of steps",
  "All temperature fields, meshes, coefficients and numbers of steps.",
  ["source/ThermalPhysics.templates.hh: evolve_one_time_step, evaluate_thermal_physics", "source/ThermalOperator.templates.hh: vmult_add, compute_inverse_mass_matrix, cell_local_apply, face_local_apply"])
p("Temperatures of a heated part",
  "With beams that deliver a nonnegative heat, a forward Euler step with convection and radiation makes no temperature lower than the lowest of the temperatures before the step and of the surroundings, and raises the highest one by at most the time step times the largest rate at which the beams alone would heat a point (power density over density and heat capacity), under the conditions of the property without sources.  On boxes of any shape with Gauss-Lobatto points, after n steps every temperature is between the lowest one and the highest one plus n times the step times that rate, with beams that go on and off and laws that change with time, place and temperature, under the same limit on the time step as without beams.  The bound is reached by a square without losses under an even beam.",
  "all meshes, laws, beams, temperatures, boundary conditions, time steps and numbers of steps",
  "All temperature fields, meshes, beams and numbers of steps.",
  ["source/ThermalPhysics.templates.hh: evolve_one_time_step, evaluate_thermal_physics", "source/ThermalOperator.templates.hh: vmult_add, compute_inverse_mass_matrix, cell_local_apply, face_local_apply, get_inv_rho_cp"])
p("Quadrature points have the data of their cells",
  "At every point of every lane of the host, and at every entry of the device views that the operator reads, the liquid and powder ratios, the material and the deposition angle are those of the cell to which the point belongs, for any batches, colours, activation and distribution over the processes; all accesses are in bounds if there is one angle for each cell of the process with material, in the order of the mesh, and the angles of a shorter list are read past its end.  The map from cells to lanes is the inverse of the lanes, so spreading the state over the points and writing it back changes nothing.  The value of density and heat capacity that the sources on the device use is the mean over the points of the cell.  Faces of the boundary of the active material have the data of their side with material if that cell belongs to the process that treats the face; otherwise they are treated as if they were of the first material and not powder, whatever the cell is.",
  "all meshes, batches, colourings, activation states, distributions over processes and data",
  "All layouts that the finite element library may choose.",
  ["source/ThermalOperator.templates.hh: reinit, get_state_from_material_properties, set_material_deposition_orientation", "source/ThermalOperatorDevice.templates.hh: reinit, get_state_from_material_properties, set_material_deposition_orientation, update_inv_rho_cp_cell"])
p("Processes, distribution and numbering",
  "The temperatures do not depend on the number of processes: however cells, faces and degrees of freedom are distributed, as long as each has one process and each process knows all entries behind the nodes of its cells (its own or ghosts, also through hanging nodes), the rates of the processes together are those of one process, whatever stands in entries a process does not store; so are whole runs with any of the schemes, also if the distribution changes between evaluations, and the printed heat of the beams.  Nor do they depend on the numbering of the degrees of freedom or the order of cells, faces and constraints: the same field has the same rates and the same values after any number of steps.  In binary64 the results need not be equal bit by bit (refuted: the order of additions changes).",
  "all meshes with hanging nodes, distributions over processes, numberings, laws, fields, schemes and numbers of steps",
  "All distributions and numberings the mesh library may choose.",
  ["source/ThermalOperator.templates.hh: compute_inverse_mass_matrix, vmult_add, cell_local_apply, face_local_apply", "source/ThermalPhysics.templates.hh: evaluate_thermal_physics_impl, evolve_one_time_step"])
p("Linear temperature profiles are exact",
  "What the operator conducts is Fourier's law with the conductivity along the direction of deposition, across it and vertically, divided by density and heat capacity.  In a homogeneous material, a temperature that is linear in space and loses through each boundary point (by convection and radiation, or nothing when adiabatic) what is conducted there, rises everywhere at the rate at which the beams heat, so without beams it is steady, and it is the exact result after any number of steps of any lengths with any of the explicit schemes, on every mesh with exact gradients that satisfies the divergence theorem; meshes of boxes of any sizes with Gauss-Lobatto points, in two and three dimensions and with hanging nodes, are such meshes.",
  "all box meshes with hanging nodes, linear profiles, conductivities, directions, boundary conditions, schemes, time steps and numbers of steps",
  "All slopes, meshes and numbers of steps.",
  ["source/ThermalOperator.templates.hh: cell_local_apply, face_local_apply, vmult_add", "source/ThermalPhysics.templates.hh: evolve_one_time_step, evaluate_thermal_physics_impl"])
p("Which loads a body can carry",
  "The equations of the displacement have an exact solution if and only if the body forces do no work on displacements without strain; heating alone always has one.  It is unique when no displacement without strain is compatible with the clamped faces and hanging nodes, in particular for boxes that reach a clamped face through common sides (also across hanging nodes, in two and three dimensions).  Exact solutions are the displacements of least potential energy and can be superposed.  A load that pushes along a displacement without strain, such as the weight of a body that is not clamped, makes every solve throw, whatever the linear solver does.",
  "all meshes with hanging nodes and clamped faces, elastic parameters, temperatures, body forces and iterates of the linear solver",
  "A continuum of loads on all meshes, and all behaviours of the linear solver.",
  ["source/MechanicalPhysics.cc: setup_dofs, update_rhs, solve", "source/MechanicalOperator.cc: assemble_matrix, assemble_rhs", "source/BodyForce.cc: eval"])
p("What malformed files do",
  "Scan path, event, deposition and property texts with a word that is not a number, a wrong mode, a wrong format, a time that decreases or too many entries are reported with an exception; a program that reads one goes past the end of a vector exactly if a line stops before its last column and everything read before is a number (never for polynomials, and never if all lines have all columns, whatever is in them).  Not satisfied: a segment file that another program is still writing, cut inside its last line, is read out of bounds instead of being reported.",
  "all texts, scalings, parsers of numbers and numbers of lines",
  "All malformed files.",
  ["source/ScanPath.cc: read_file, load_segment_scan_path, load_event_series_scan_path", "source/material_deposition.cc: read_material_deposition", "source/MaterialProperty.templates.hh: fill_properties"])
p("Where a part lies makes no difference",
  "When the mesh with its quadrature points, the scan paths and the directions of deposition are shifted, turned about the vertical or mirrored together (in two dimensions: shifted or mirrored), every run with any explicit scheme, time steps, material laws (also conductivities that depend on the direction), boundary conditions and Goldak and electron beams gives the same temperatures, or the same exception.  Not satisfied by scan paths with rotations (five axes), which turn the part about the origin.",
  "all meshes, motions, laws, beams, scan paths, schemes, time steps and temperatures",
  "A continuum of motions of all parts and runs.",
  ["source/ScanPath.cc: value, get_power_modifier", "source/GoldakHeatSource.cc: update_time, value", "source/ElectronBeamHeatSource.cc: update_time, value", "source/ThermalOperator.templates.hh: cell_local_apply, face_local_apply, vmult_add", "source/ThermalPhysics.templates.hh: evolve_one_time_step, evaluate_thermal_physics_impl"])
p("Beams, surroundings and initial temperatures add up",
  "Where conductivities, heat capacities and heat transfer coefficients do not depend on the temperature and no face radiates, runs can be superposed: a run whose beams, surroundings and initial temperatures are weighted sums of those of other runs has, at every node and after any time steps with any explicit scheme, the weighted sum of their temperatures.  In particular each beam raises the temperature by what it raises it alone, whatever the others do and wherever they are switched on and off, and a beam with a times the power raises it a times as much; initial temperatures and surroundings with c degrees more give c degrees more everywhere (degrees Celsius and Kelvin).  Not satisfied with radiation.",
  "all meshes with hanging nodes, laws that do not depend on the temperature, beams, scan paths, schemes, time steps, weights and temperatures",
  "A continuum of combinations of runs, with histories of beams of all lengths.",
  ["source/ThermalOperator.templates.hh: cell_local_apply, face_local_apply, vmult_add", "source/ThermalPhysics.templates.hh: evolve_one_time_step, evaluate_thermal_physics_impl", "source/GoldakHeatSource.cc: update_time, value", "source/ElectronBeamHeatSource.cc: update_time, value"])
p("Shorter time steps converge to the solution of the heat equation",
  "Where material laws and beams depend neither on the temperature nor on time and no face radiates, the equations for the temperatures at the nodes have exactly one solution from every start, and what the explicit schemes compute up to any time is within C h^p of it at every node, p being 1, 3 and 4 for forward Euler and the third and fourth order Runge-Kutta schemes, for all sequences of steps of at most h, equal or not, with one C for all of them; in particular the temperatures at a time T, computed with more and more equal steps, tend to those of the solution.",
  "all meshes with hanging nodes, laws, beams, schemes, initial temperatures, sequences of time steps and times",
  "Limits of infinitely many runs, and continua of time steps.",
  ["source/ThermalPhysics.templates.hh: evolve_one_time_step, evaluate_thermal_physics_impl, constructor (time_stepping)", "source/ThermalOperator.templates.hh: vmult_add"])
p("The mechanical problem does not depend on the number of processes",
  "However the cells are shared among processes, as long as each has one owner, and as long as each process has the flags of its own cells and the temperatures at their nodes, the matrix and the right hand side that the processes assemble together are those of one process; with the same iterates of the linear solver any sequence of solves gives the same displacements and the same stress, back stress and yield limit at every quadrature point (each on the process that owns its cell), or throws on all.  Whatever the iterates, the displacement that the processes compute balances the last load up to 1e-12 of its size.",
  "all meshes with hanging nodes and clamped faces, distributions of the cells, temperatures, flags, forces, elastic and plastic parameters, and sequences of solves",
  "All distributions over any number of processes.",
  ["source/MechanicalOperator.cc: assemble_matrix, assemble_rhs, update_temperature", "source/MechanicalPhysics.cc: solve, compute_stress"])
p("More heat never makes a part colder",
  "Two runs of the same part with forward Euler: if in the second at least as much heat is released at every point at every time, the surroundings are nowhere colder and no initial temperature is lower, then no temperature is ever lower, at any node - provided the time steps are within the limit set by conduction and losses (for boxes with Gauss-Lobatto points an explicit one from the smallest edge, the largest diffusivity and the largest loss), heat capacities and conductivities do not depend on the temperature, and, where faces radiate, both runs stay between 0 and the temperature for which the limit was computed.  In particular one more Goldak beam, or more power of the beams, never makes a node colder, and nothing becomes colder than the start and the surroundings.  With the limit of conduction alone it is false.  With any of the three schemes and no radiation, of two runs with the same heat and surroundings the one that starts no colder is never colder, while the time steps are within the limit of C79.",
  "all meshes with hanging nodes, material laws, beams, scan paths, boundary conditions, initial temperatures and sequences of time steps",
  "A continuum of pairs of runs of all lengths.",
  ["source/ThermalOperator.templates.hh: cell_local_apply, face_local_apply, vmult_add", "source/ThermalPhysics.templates.hh: evolve_one_time_step, evaluate_thermal_physics_impl", "source/GoldakHeatSource.cc: update_time, value"])
for q in P: print(json.dumps(q))
