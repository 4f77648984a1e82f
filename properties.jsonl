{"id": "C01", "title": "Simulated time advances and never passes stop_time under adaptive stepping", "statement": "In a run with CFL-controlled time stepping, a positive time.stop_time and no active time.delay_time window, every completed step strictly increases the simulation time, and no reported time ever exceeds stop_time; when the run ends because of stop_time the last time equals stop_time up to the stop tolerance.", "quantifier": "every admissible set of time.* inputs, every sequence of per-step CFL maxima the flow solver can report, every number of steps", "why_tests_cant": "the sequence of CFL values depends on the flow and is unbounded; a unit test fixes one sequence and one parameter set", "anchors": ["amr-wind/core/SimTime.cpp: SimTime::set_current_cfl, SimTime::new_timestep, SimTime::advance_time, SimTime::continue_simulation"]}
{"id": "C02", "title": "The time loop terminates", "statement": "The evolve loop runs at most max(max_step - start_index, 0) steps when time.max_step is non-negative; with fixed_dt and a stop_time it runs at most ceil((stop_time - start_time)/fixed_dt) steps; and an adaptive run whose computed step never falls below min_dt stops after finitely many steps bounded by the parameters.", "quantifier": "every parameter set, every CFL history", "why_tests_cant": "non-termination is a property of infinite histories; no finite test can establish a bound for all histories", "anchors": ["amr-wind/core/SimTime.cpp: SimTime::continue_simulation, SimTime::new_timestep", "amr-wind/incflo.cpp: incflo::Evolve"]}
{"id": "C03", "title": "Step-size limits are honoured on every step", "statement": "On every adaptive step outside the delay_time window: the CFL number of the step that is taken is at most time.cfl (times init_shrink during initialisation), the step does not exceed (1+max_dt_growth) times the previous step when there is one, it does not exceed max_dt when max_dt is positive, and the run aborts rather than accept a CFL/growth-limited step below a positive min_dt. With fixed_dt every step equals fixed_dt.", "quantifier": "every parameter set, every history of CFL inputs", "why_tests_cant": "the bounds must hold simultaneously for every interaction of the limiters (init shrink, growth, caps, forced output times)", "anchors": ["amr-wind/core/SimTime.cpp: SimTime::set_current_cfl"]}
{"id": "C04", "title": "Enforced output times are hit exactly", "statement": "With enforce_plot_time_dt (checkpoint, or a post-processing enforced interval) an adaptive run never steps across a positive multiple of the requested time interval by more than the enforcement tolerance allows: each step either ends at or before the next multiple (as resolved with the relative tolerance), and the shortened step is still strictly positive.", "quantifier": "every interval, tolerance in (0,1), every current time and CFL history", "why_tests_cant": "depends on floor arithmetic of arbitrary real times; sampling times cannot cover the boundary cases", "anchors": ["amr-wind/core/SimTime.H: get_enforced_dt_for_output", "amr-wind/core/SimTime.cpp: SimTime::set_current_cfl"]}
{"id": "C05", "title": "Plot and checkpoint files follow the step-interval schedule and the final state is written once", "statement": "With plot_interval (checkpoint_interval) n > 0, start index s and delay d, the evolve loop writes a file exactly after those steps i with i >= d and (i - s) divisible by n, and at the end of the run the final state is on disk, written exactly once.", "quantifier": "every interval, start, delay, number of steps, reason for stopping", "why_tests_cant": "the claim couples the periodic test, the after-loop test and the loop's stopping rule over unbounded runs", "anchors": ["amr-wind/core/SimTime.cpp: SimTime::write_plot_file, SimTime::write_checkpoint, SimTime::write_last_plot_file, SimTime::write_last_checkpoint", "amr-wind/incflo.cpp: incflo::Evolve, incflo::post_advance_work"]}
{"id": "C06", "title": "Restarting from a checkpoint continues the same step sequence", "statement": "A run that is stopped at a checkpoint and restarted with the same inputs reports the same step indices, times and step sizes as the uninterrupted run.", "quantifier": "every checkpoint position, every parameter set, every CFL history", "why_tests_cant": "must hold at every possible interruption point of every run", "anchors": ["amr-wind/core/SimTime.cpp: SimTime::set_restart_time", "amr-wind/utilities/io.cpp: incflo::ReadCheckpointFile", "amr-wind/utilities/IOManager.cpp: IOManager::write_header"]}
{"id": "C07", "title": "A post-processing utility produces output for a given step at most once, and on the final step when requested", "statement": "Over a complete run every post-processing object performs its output at most once per step; with output_after_final_step (or a matching interval) it performs it exactly once for the last step.", "quantifier": "every output interval/start/delay, every run length, both step-based and time-based schedules", "why_tests_cant": "requires reasoning about the interaction of initialisation, per-step and final hooks in every run", "anchors": ["amr-wind/utilities/PostProcessing.cpp: PostProcessBase::do_output_now, PostProcessingManager::post_init_actions, PostProcessingManager::post_advance_work, PostProcessingManager::final_output"]}
{"id": "C08", "title": "Time-interval outputs: one output for each interval boundary crossed", "statement": "With plot_time_interval (checkpoint_time_interval, postproc output_time_interval) D and steps no longer than D, one output is produced for every multiple of D that the run passes (within the tolerance), none is skipped and none is duplicated.", "quantifier": "every interval, tolerance, start time, step-size history", "why_tests_cant": "depends on the joint behaviour of floor, tolerance and varying dt over unbounded histories", "anchors": ["amr-wind/core/SimTime.cpp: SimTime::write_plot_file, SimTime::write_checkpoint", "amr-wind/utilities/PostProcessing.cpp: PostProcessBase::do_output_now"]}
{"id": "C09", "title": "Field data exists on exactly the active levels for every registered field", "statement": "After any history of field declarations, field lookups, level creations, level refinements, re-makes and level deletions, every registered field (and every one of its time states) has data on every active mesh level, with the box layout of that level, its declared number of components and ghost cells, and a valid handle never refers to another field's data.", "quantifier": "every finite history of repository and mesh-hierarchy operations", "why_tests_cant": "the invariant ranges over unbounded operation histories", "anchors": ["amr-wind/core/FieldRepo.cpp: FieldRepo::declare_field, FieldRepo::make_new_level_from_scratch, FieldRepo::make_new_level_from_coarse, FieldRepo::remake_level, FieldRepo::clear_level, FieldRepo::allocate_field_data"]}
{"id": "C10", "title": "Field registration: unique names, idempotent re-declaration, mismatch aborts", "statement": "Field names map to unique handles; declaring an existing name again with the same shape returns the same field and changes nothing; declaring it with a different number of components, number of states, or location aborts, and a reserved name or more than the supported number of states aborts.", "quantifier": "every history of declarations", "why_tests_cant": "unbounded declaration histories", "anchors": ["amr-wind/core/FieldRepo.cpp: FieldRepo::declare_field, FieldRepo::create_field, FieldRepo::get_field, FieldRepo::field_exists"]}
{"id": "C11", "title": "Old time states hold the solution of the previous steps", "statement": "For a field with n states, after any number of step advances the k-th old state on every active level equals the newest state as it was k advances ago (for k < n), the newest state is unchanged by advancing, and fields without old states are untouched.", "quantifier": "every number of states up to the maximum, every number of advances, every data history", "why_tests_cant": "shift-register correctness over unbounded histories; copy order errors appear only with 3 states", "anchors": ["amr-wind/core/Field.cpp: Field::advance_states, Field::copy_state, Field::create_state", "amr-wind/core/FieldRepo.cpp: FieldRepo::advance_states"]}
{"id": "C12", "title": "Mesh-mapping round trip of vector fields", "statement": "Converting a field to the uniform (computational) space and back returns the original values, converting to the space it is already in changes nothing, and fields whose state flag says stretched/uniform never get the scaling applied twice, provided the mapping factors are non-zero.", "quantifier": "every field content, every mapping with non-zero factors, every sequence of conversions", "why_tests_cant": "unbounded sequences of conversions and all real values", "anchors": ["amr-wind/core/Field.cpp: Field::to_uniform_space, Field::to_stretched_space"]}
{"id": "C13", "title": "Regridding keeps level data consistent", "statement": "When the hierarchy changes, levels that are removed lose their data for all fields, levels that are created or re-made carry data for all fields laid out on the new boxes, and levels not involved keep their data unchanged.", "quantifier": "every sequence of hierarchy changes, every field set", "why_tests_cant": "unbounded histories", "anchors": ["amr-wind/core/FieldRepo.cpp: FieldRepo::make_new_level_from_coarse, FieldRepo::remake_level, FieldRepo::clear_level", "amr-wind/incflo.cpp: incflo::RemakeLevel, incflo::ClearLevel"]}
{"id": "C14", "title": "Table look-up brackets the query", "statement": "For every sorted table of at least two abscissae and every query inside it, the search returns an interval of the table that contains the query, without reading outside the table and after at most logarithmically many probes; the hinted search returns a valid bracket for any hint not past it; queries outside are reported as lower/upper limit.", "quantifier": "every table length and content, every query, every hint", "why_tests_cant": "all table sizes; off-by-one errors occur only at particular sizes and positions", "anchors": ["amr-wind/utilities/linear_interpolation.H: check_bounds, bisection_search, find_index, nearest_search"]}
{"id": "C15", "title": "Linear interpolation: exact on nodes, linear between, constant outside", "statement": "Linear interpolation returns the tabulated value at the abscissae, lies between the two bracketing values in between, reproduces affine data exactly (when table spacing exceeds the tolerance), and returns the end values outside; it never reads outside the table for any number of components.", "quantifier": "every strictly increasing table, every data, every query, every component count", "why_tests_cant": "all real inputs and all table sizes", "anchors": ["amr-wind/utilities/linear_interpolation.H: linear, linear_impl"]}
{"id": "C16", "title": "Monotonic sweep interpolation equals independent interpolation", "statement": "Interpolating a non-decreasing list of query points in one sweep gives, point by point, the same results as interpolating every point independently.", "quantifier": "every table, every non-decreasing list of queries", "why_tests_cant": "unbounded query lists; the carried search hint is a history-dependent state", "anchors": ["amr-wind/utilities/linear_interpolation.H: linear_monotonic"]}
{"id": "C17", "title": "Angle interpolation follows the shorter arc", "statement": "Interpolating angles returns the tabulated angle at the abscissae (modulo the period), moves along the shorter arc between neighbouring values, and the result is invariant (modulo the period) under adding whole periods to the table values.", "quantifier": "every table, every period > 0, every query", "why_tests_cant": "all reals including wrap-around boundaries", "anchors": ["amr-wind/utilities/linear_interpolation.H: linear_angle"]}
{"id": "C18", "title": "Bilinear interpolation is exact on bilinear data and continuous at the table edge", "statement": "Inside the table, bilinear interpolation reproduces every function of the form a+bx+cy+dxy and stays within the range of the four surrounding values; outside it clamps the out-of-range coordinate and still interpolates in the other one.", "quantifier": "every table, every data, every query", "why_tests_cant": "all reals and table sizes, including out-of-range quadrants", "anchors": ["amr-wind/utilities/linear_interpolation.H: bilinear, bilinear_impl"]}
{"id": "C19", "title": "Running time averages equal the true time average", "statement": "With a window at least as long as the averaging period, the averaged field after any number of accumulated samples equals the sample-duration-weighted mean of the samples, the averaged value always lies between the smallest and largest sample, the Reynolds stress equals the mean of the product minus the product of the means, and nothing is accumulated outside [averaging_start_time, averaging_stop_time).", "quantifier": "every sample sequence, every step-size sequence, every phase-averaging interval", "why_tests_cant": "unbounded sample histories", "anchors": ["amr-wind/utilities/averaging/TimeAveraging.cpp: TimeAveraging::post_advance_work", "amr-wind/utilities/averaging/ReAveraging.cpp: ReAveraging::operator()", "amr-wind/utilities/averaging/ReynoldsStress.cpp: ReynoldsStress::operator()"]}
{"id": "C20", "title": "Trapezoidal integration", "statement": "The trapezoidal integral of a function over [a,b] with n >= 1 panels equals the sum of the n trapezia between consecutive nodes, is exact for affine integrands, linear and monotone in the integrand, and additive when the interval is split at a node.", "quantifier": "every table length and content", "why_tests_cant": "all sizes and reals", "anchors": ["amr-wind/utilities/integrals.H: trapz"]}
{"id": "C21", "title": "Plane averages are independent of domain decomposition and correct", "statement": "The plane-averaged profile equals the arithmetic mean over the cells of each plane whatever way the level is decomposed into boxes and tiles, in whatever order they are processed and on however many ranks; interpolated line averages coincide with cell averages at cell centres, are bounded by neighbouring cell averages and constant beyond the first/last cell centre; the cell accessor and the interpolated accessor describe the same profile.", "quantifier": "every decomposition, processing order, field content, axis direction, query height", "why_tests_cant": "all decompositions and schedules", "anchors": ["amr-wind/utilities/FieldPlaneAveraging.cpp: FPlaneAveraging::compute_averages, line_average_interpolated, line_average_cell, line_derivative_of_average_cell, VelPlaneAveraging::line_hvelmag_average_cell"]}
{"id": "C22", "title": "Physical regions map to index boxes that cover them", "statement": "The index box computed for a physical box contains every cell whose centre lies in the physical box (clipped to the domain), and it never leaves the domain.", "quantifier": "every geometry, every physical box intersecting the domain", "why_tests_cant": "floor/ceil arithmetic over all real boxes and mesh sizes", "anchors": ["amr-wind/utilities/index_operations.cpp: realbox_to_box"]}
{"id": "C23", "title": "Geometric refinement tags exactly the cells inside the shape", "statement": "For a box (parallelepiped) or cylinder refinement region, a cell is tagged exactly when its centre lies in the geometric region (for right-handed box axes), and the bounding-box culling never skips a cell of the region.", "quantifier": "every region, every mesh, every cell", "why_tests_cant": "all real geometries", "anchors": ["amr-wind/utilities/tagging/BoxRefiner.cpp: BoxRefiner::operator()", "amr-wind/utilities/tagging/CylinderRefiner.cpp: CylinderRefiner::operator()", "amr-wind/utilities/tagging/GeometryRefinement.cpp: GeometryRefinement::operator()"]}
{"id": "C24", "title": "Static Cartesian refinement covers the requested boxes", "statement": "Every cell of a level whose centre lies inside a requested refinement box of that level is tagged, and all tagged cells lie in the domain.", "quantifier": "every list of requested boxes, every level geometry", "why_tests_cant": "all real boxes and mesh sizes", "anchors": ["amr-wind/utilities/tagging/CartBoxRefinement.cpp: realbox_to_boxarray, CartBoxRefinement::operator()"]}
{"id": "C25", "title": "Vector-space algebra: rotations are proper rotations", "statement": "Rotation tensors built from axis and angle preserve lengths, angles and orientation, fix their axis, compose additively for equal axes and are inverted by the transpose; cross and dot products, transposes and normalisation satisfy their defining identities; normalising a non-zero vector gives a unit vector and a (near-)zero vector gives zero.", "quantifier": "every vector, every axis, every angle", "why_tests_cant": "all reals", "anchors": ["amr-wind/core/vs/vector.H", "amr-wind/core/vs/tensor.H", "amr-wind/core/vs/vectorI.H", "amr-wind/core/vs/tensorI.H"]}
{"id": "C26", "title": "Volume fraction stays in [0,1]", "statement": "After any number of advection sweeps with any velocity field, any boundary conditions and any initial field, every cell's volume fraction lies in [0,1]; every face flux fraction lies in [0,1].", "quantifier": "every initial field, velocity history, step size, sweep order, number of steps", "why_tests_cant": "unbounded histories, all reals", "anchors": ["amr-wind/equation_systems/vof/split_advection.H: balance_eulerian_fluxes, eulerian_implicit", "amr-wind/equation_systems/vof/SplitAdvection.cpp"]}
{"id": "C27", "title": "Liquid volume is conserved by the directional sweeps", "statement": "Before clipping, the total liquid volume over a row changes by the boundary fluxes only when the row's net dilatation correction cancels; summed over the three directional sweeps of one step with a discretely divergence-free velocity the corrections cancel cell by cell and total volume is conserved (periodic or closed boundaries).", "quantifier": "every row length / mesh size, every field, every divergence-free face velocity field", "why_tests_cant": "telescoping sums over arbitrary meshes", "anchors": ["amr-wind/equation_systems/vof/split_advection.H: balance_eulerian_fluxes", "amr-wind/equation_systems/vof/SplitAdvection.cpp: split_advection_step, sweep"]}
{"id": "C28", "title": "Each face flux comes from its upwind cell only, and wall faces carry none", "statement": "For every face at most one of its two neighbouring cells contributes to the advected fraction, it is the upwind one, and the flux through a wall-type domain face is exactly zero while other faces are unaffected.", "quantifier": "every face, every velocity, every boundary type combination", "why_tests_cant": "all faces/boundary combinations, all reals", "anchors": ["amr-wind/equation_systems/vof/split_advection.H: eulerian_implicit, fluxes_bc_save"]}
{"id": "C29", "title": "Directional sweeps visit every direction once per step and alternate", "statement": "In every step the three sweeps are a permutation of the three coordinate directions, and over any three (six) consecutive steps every direction is first, second and third equally often.", "quantifier": "every step number", "why_tests_cant": "all step counts", "anchors": ["amr-wind/equation_systems/vof/vof_advection.H: AdvectionOp::operator()", "amr-wind/equation_systems/vof/SplitAdvection.cpp: multiphase::split_advection_step"]}
{"id": "C30", "title": "PLIC geometry: cut volume is a volume", "statement": "The cut volume of a cell by a plane lies in [0,1], is 0 (1) when the plane lies outside on the empty (full) side, is symmetric under permutation of coordinates, complementary under reflection, non-decreasing in the plane offset, and the computed plane offset reproduces the given volume fraction.", "quantifier": "every normal, offset, slab", "why_tests_cant": "all reals; piecewise-cubic case splits have measure-zero boundaries", "anchors": ["amr-wind/equation_systems/vof/volume_fractions.H: cut_volume, volume_intercept, fit_plane"]}
{"id": "C31", "title": "Debris removal is independent of cell processing order", "statement": "Removing isolated droplets gives the same field for every order in which the cells are processed, never creates liquid and removes only cells all of whose face neighbours were (almost) empty.", "quantifier": "every field, every processing order (parallel schedule)", "why_tests_cant": "all schedules", "anchors": ["amr-wind/equation_systems/vof/split_advection.H: remove_vof_debris"]}
{"id": "C32", "title": "Two-phase mixture properties are bounded by the phase properties", "statement": "Density and viscosity computed from the volume fraction lie between the values of the two phases whenever the fraction is in [0,1], and equal the phase values at 0 and 1; the volume fraction set from a free-surface elevation lies in [0,1] and its column sum gives the liquid height; with a level set the density lies between those of the fluids after every step of a run, and the level set gains only what enters through the boundary.", "quantifier": "every fraction, every positive phase property, every elevation, every column, every run of steps of a level set", "why_tests_cant": "all reals", "anchors": ["amr-wind/physics/multiphase/MultiPhase.cpp: MultiPhase::set_density_via_vof, set_density_via_levelset", "amr-wind/equation_systems/levelset/levelset_ops.H: ComputeRHSOp, PostSolveOp", "amr-wind/transport_models/TwoPhaseTransport.H", "amr-wind/ocean_waves/utils/wave_utils_K.H: free_surface_to_vof"]}
{"id": "C33", "title": "Gradient, divergence and filter stencils are consistent everywhere, for every box decomposition", "statement": "The discrete gradient (divergence, strain rate, vorticity) is exact for affine fields at every cell, including cells next to non-periodic boundaries whose ghost value is the face value, each cell's result is the one of the stencil that belongs to its position in the domain regardless of how the domain is decomposed into boxes, and the filter preserves constants.", "quantifier": "every mesh, every decomposition, every affine field, every cell", "why_tests_cant": "all decompositions and positions (27 stencil classes)", "anchors": ["amr-wind/fvm/stencils.H", "amr-wind/fvm/fvm_utils.H: apply", "amr-wind/fvm/gradient.H", "amr-wind/fvm/divergence.H", "amr-wind/fvm/filter.H"]}
{"id": "C34", "title": "Second-derivative stencils are exact for quadratics", "statement": "The discrete second derivative is exact for quadratic fields in the interior and next to non-periodic boundaries, and the discrete Laplacian of a field whose components are affine vanishes.", "quantifier": "every mesh spacing, every quadratic, every position", "why_tests_cant": "all reals, all positions", "anchors": ["amr-wind/fvm/laplacian.H", "amr-wind/fvm/stencils.H"]}
{"id": "C35", "title": "Monin-Obukhov flux iteration terminates with a physically signed result", "statement": "The friction-velocity iteration performs at most a fixed number of iterations, for neutral conditions returns the log-law value, and similarity functions are continuous at neutral, monotone, and have the right sign for stable and unstable stratification; the velocity profile increases with height above the roughness length.", "quantifier": "every positive roughness, height, wind speed, surface temperature/heat flux", "why_tests_cant": "all reals; iteration histories", "anchors": ["amr-wind/wind_energy/MOData.cpp: MOData::update_fluxes", "amr-wind/wind_energy/MOData.H: phi_m, calc_psi_m, calc_psi_h"]}
{"id": "C36", "title": "Wall-stress models oppose the flow", "statement": "Every wall shear-stress model returns a stress aligned with the local horizontal velocity, whose average over a homogeneous plane equals u*^2 in the wind direction, and drag coefficients stay within their stated bounds.", "quantifier": "every velocity, every model", "why_tests_cant": "all reals", "anchors": ["amr-wind/wind_energy/ShearStress.H"]}
{"id": "C37", "title": "Wave relaxation blending is a convex combination", "statement": "Generation/absorption blending coefficients lie in [0,1], equal their limits at zone ends, and the blended field always lies between target and computed values; with coefficient 1 the field is unchanged and with 0 equals the target; time ramps are within [0,1], monotone and reach 1.", "quantifier": "every position, zone length, time, field values", "why_tests_cant": "all reals", "anchors": ["amr-wind/ocean_waves/utils/wave_utils_K.H: gamma_generate, gamma_absorb, ramp, combine_linear, harmonize_profiles_1d"]}
{"id": "C38", "title": "Stretched channel mesh is a valid coordinate map", "statement": "The stretched channel map is strictly increasing, maps the channel ends to themselves, reduces to identity for zero stretching, and the scaling factor used by the solver is the derivative of the map.", "quantifier": "every stretching factor, every channel length, every coordinate", "why_tests_cant": "all reals", "anchors": ["amr-wind/mesh_mapping_models/ChannelFlowMap.cpp: eval_coord, eval_fac"]}
{"id": "C39", "title": "Coriolis forcing does no work", "statement": "The Coriolis source term is orthogonal to the velocity it is computed from and linear in it, and vanishes for zero velocity.", "quantifier": "every velocity, latitude, rotation period", "why_tests_cant": "all reals", "anchors": ["amr-wind/equation_systems/icns/source_terms/CoriolisForcing.cpp"]}
{"id": "C40", "title": "Samplers return exactly the requested points and interpolation is exact for affine fields", "statement": "Every sampler generates exactly the number of points it announces, at the documented positions, with end points included; each particle's sampled value is exact for affine fields and bounded by the eight surrounding cell values.", "quantifier": "every number of points, every line/plane/volume, every offset list", "why_tests_cant": "all sizes and reals", "anchors": ["amr-wind/utilities/sampling/LineSampler.cpp", "amr-wind/utilities/sampling/PlaneSampler.cpp", "amr-wind/utilities/sampling/VolumeSampler.cpp", "amr-wind/utilities/sampling/SamplingContainer.cpp"]}
{"id": "C41", "title": "Inflow planes from file are interpolated between the bracketing times", "statement": "When a boundary-plane file is read, at every simulation time in the recorded range the imposed value lies between the two recorded values bracketing it, equals the recorded value at recorded times, and the read head always brackets the current time for every step sequence.", "quantifier": "every recorded time table, every increasing sequence of simulation times", "why_tests_cant": "stateful read head over unbounded step sequences", "anchors": ["amr-wind/wind_energy/ABLBoundaryPlane.cpp: InletData::interpolate, InletData::read_data, closest_index"]}
{"id": "C42", "title": "Run-time registries create what was asked for", "statement": "Creating an object by a registered keyword always invokes the creator registered under that keyword, unknown keywords abort, and registering a second creator under a keyword never silently replaces the first.", "quantifier": "every registration history, every keyword", "why_tests_cant": "unbounded registration histories", "anchors": ["amr-wind/core/Factory.H: Factory::create, Factory::Register", "amr-wind/core/CollMgr.H: CollMgr::create"]}
{"id": "C43", "title": "A dry run performs no time step and writes no checkpoint", "statement": "In dry-run mode the evolve loop takes no time step, one plot file is written and no checkpoint file is written, whatever the user's output settings.", "quantifier": "every user input deck", "why_tests_cant": "all input decks", "anchors": ["amr-wind/setup/init.cpp: incflo::CheckAndSetUpDryRun", "amr-wind/incflo.cpp: incflo::prepare_for_time_integration"]}
{"id": "C44", "title": "Checkpoint headers round-trip, and domain replication tiles the restart domain", "statement": "Reading a written checkpoint header gives back the level count, step index, time, step sizes, domain and box layouts; replicating a checkpoint onto a domain that is an integer multiple of the original places disjoint translated copies of every box at every level covering the enlarged region, and non-integer ratios abort.", "quantifier": "every hierarchy, every replication factor", "why_tests_cant": "all hierarchies and factors", "anchors": ["amr-wind/utilities/io.cpp: incflo::ReadCheckpointFile", "amr-wind/utilities/IOManager.cpp: IOManager::write_header"]}
{"id": "C45", "title": "Plot-file variables and data components agree", "statement": "For every set of registered fields and derived quantities, the list of variable names in the plot file has as many entries as data components, every field's components occupy consecutive positions under its own names and no two fields overlap, and registering a field twice has no effect.", "quantifier": "every registration sequence, every component count", "why_tests_cant": "unbounded registration sequences", "anchors": ["amr-wind/utilities/IOManager.cpp: IOManager::initialize_io, IOManager::register_output_var, IOManager::write_plot_file", "amr-wind/utilities/DerivedQuantity.cpp"]}
{"id": "C46", "title": "Overset and masking operations touch exactly the masked cells", "statement": "Masking operations change only cells flagged by the integer mask and leave the rest bitwise unchanged, for every mask pattern.", "quantifier": "every mask, every field", "why_tests_cant": "all masks", "anchors": ["amr-wind/overset/overset_ops_K.H"]}
{"id": "C47", "title": "Regrid and refinement schedule", "statement": "Mesh adaptation during the run happens exactly before those steps whose distance from the regrid start (by default the step the run was started or restarted from) is a positive multiple of the regrid interval, and never when the interval is not positive.", "quantifier": "every interval and start, every step", "why_tests_cant": "all steps", "anchors": ["amr-wind/core/SimTime.cpp: SimTime::do_regrid", "amr-wind/incflo.cpp: incflo::regrid_and_update"]}
{"id": "C48", "title": "Sweep order after a restart", "statement": "A run restarted from a checkpoint advects the volume fraction with the same order of directional sweeps, step by step, as the uninterrupted run.", "quantifier": "every checkpoint step, every number of steps after it", "why_tests_cant": "all restart points; unit tests never restart", "anchors": ["amr-wind/equation_systems/vof/vof_advection.H: AdvectionOp<VOF,Godunov>::operator() (isweep)", "amr-wind/utilities/IOManager.cpp: write_checkpoint_file"]}
{"id": "C49", "title": "Hydrostatic reference state is balanced", "statement": "For a still water level anywhere inside or outside the domain, the reference density of a cell is the mixture at the submerged fraction of the cell, and the reference pressure at the nodes above and below it differs by exactly gravity times the cell height times that density, with zero pressure at the top of the domain when the level is inside.", "quantifier": "every water level, cell height, pair of densities, gravity, cell of the domain", "why_tests_cant": "all reals and all cells; rounding-level tests sample a few levels", "anchors": ["amr-wind/physics/multiphase/hydrostatic_ops.H: define_rho0, define_p0"]}
{"id": "C50", "title": "Prescribed waves solve the water-wave problem", "statement": "The linear wave prescribed in the relaxation zones has a divergence-free, irrotational velocity that does not cross the bottom, satisfies the linearised surface conditions with its elevation and the dispersion relation, and has the requested height and length; Stokes waves of any order are divergence free, irrotational, do not cross the bottom, have exactly the requested crest-to-trough height and travel unchanged; the wave length computed from a period satisfies the dispersion relation of the generated wave to the tolerance, within the permitted number of iterations.", "quantifier": "every wave parameter set, every position and time, every order", "why_tests_cant": "differential identities at every point", "anchors": ["amr-wind/ocean_waves/relaxation_zones/linear_waves_ops.H", "amr-wind/ocean_waves/relaxation_zones/stokes_waves_K.H: stokes_waves, stokes_wave_length"]}
{"id": "C51", "title": "The nonlinear subgrid stress is frame independent", "statement": "The nonlinear stress of the backscatter subgrid model is the tensor 4(S.S + S.W - W.S) of the symmetric and antisymmetric parts S, W of the velocity gradient, hence symmetric and independent of the naming of the axes.", "quantifier": "every velocity field, cell and pair of axes", "why_tests_cant": "all velocity gradients; a unit test with a special gradient misses wrong off-diagonal factors", "anchors": ["amr-wind/fvm/nonLinearSum.H: NonLinearSum::apply", "amr-wind/turbulence/LES/Kosovic.cpp: update_turbulent_viscosity"]}
{"id": "C52", "title": "Driving forces balance rotation", "statement": "With the driving pressure gradient of a geostrophic wind and the rotation of the planet both active, air moving with that wind feels no horizontal force, and any departure turns with the inertial frequency; a wind given by speed and direction yields the corresponding gradient without doing work on that wind; the hurricane forcing balances its own gradient wind.", "quantifier": "every latitude, rotation period, wind, time, height and radius", "why_tests_cant": "an identity in all real parameters", "anchors": ["amr-wind/equation_systems/icns/source_terms/GeostrophicForcing.cpp", "amr-wind/equation_systems/icns/source_terms/CoriolisForcing.cpp", "amr-wind/equation_systems/icns/source_terms/HurricaneForcing.cpp"]}
{"id": "C53", "title": "Nudging and damping layers pull towards their target, and only where requested", "statement": "Damping layers and ramps have a weight between 0 and 1, monotone in the distance, full in the requested part and zero outside it, without jumps; a step no longer than the time scale moves a value towards its reference and never past it; mean forcing brings the average to the target in one step; the given radii and time scales are used.", "quantifier": "every position, layer geometry, reference, value, step", "why_tests_cant": "all reals on both sides of every threshold", "anchors": ["amr-wind/equation_systems/icns/source_terms/RayleighDamping.cpp", "amr-wind/equation_systems/icns/source_terms/ABLForcing.cpp", "amr-wind/equation_systems/icns/source_terms/GeostrophicForcing.cpp", "amr-wind/equation_systems/icns/source_terms/MetMastForcing.cpp", "amr-wind/equation_systems/icns/source_terms/VelocityFreeAtmosphereForcing.cpp", "amr-wind/equation_systems/icns/source_terms/DragForcing.cpp"]}
{"id": "C54", "title": "Buoyancy and gravity", "statement": "Fluid at the reference state feels no buoyancy, warm or light fluid is pushed against gravity; with the mean-profile term the reference temperature does not matter; the perturbational form of gravity removes exactly the weight of the reference density; a given profile file is used.", "quantifier": "every temperature, density, gravity vector and reference", "why_tests_cant": "all reals", "anchors": ["amr-wind/equation_systems/icns/source_terms/BoussinesqBuoyancy.cpp", "amr-wind/equation_systems/icns/source_terms/ABLMeanBoussinesq.cpp", "amr-wind/equation_systems/icns/source_terms/DensityBuoyancy.cpp", "amr-wind/equation_systems/icns/source_terms/GravityForcing.cpp", "amr-wind/equation_systems/icns/source_terms/BodyForce.cpp"]}
{"id": "C55", "title": "Drag removes energy", "statement": "Forest, terrain and surface drag oppose the motion relative to the obstacle, at a rate bounded independently of the speed within terrain; the first cell above the terrain is brought to the logarithmic profile of the cell above; cells away from terrain are affected only by the sponges; the result does not depend on the frame of a moving surface.", "quantifier": "every velocity, roughness, cell size, slope, stability", "why_tests_cant": "all reals", "anchors": ["amr-wind/equation_systems/icns/source_terms/ForestForcing.cpp", "amr-wind/equation_systems/icns/source_terms/DragForcing.cpp", "amr-wind/equation_systems/temperature/source_terms/DragTempForcing.cpp"]}
{"id": "C56", "title": "Terrain flags", "statement": "In every column the cells flagged as terrain are exactly those whose centre lies inside the domain and not above the terrain height, stacked from the bottom; the drag flag marks exactly the first cell above them, at most one per column, and never a terrain cell.", "quantifier": "every terrain height, cell height, column, including ghost cells", "why_tests_cant": "all heights including those exactly at a cell centre", "anchors": ["amr-wind/physics/TerrainDrag.cpp: initialize_fields, convert_waves_to_terrain_fields"]}
{"id": "C57", "title": "Turbulence energy sources", "statement": "The dissipation stored for output is nonnegative, zero without turbulence and is the very amount subtracted from the source, exactly once however many walls a cell touches; surface cells are brought to the surface value; energy inside terrain only decays.", "quantifier": "every energy, length scale, wall configuration, step", "why_tests_cant": "all reals and all wall configurations", "anchors": ["amr-wind/equation_systems/tke/source_terms/KsgsM84Src.cpp", "amr-wind/equation_systems/tke/source_terms/KwSSTSrc.cpp", "amr-wind/equation_systems/tke/source_terms/KransAxell.cpp"]}
{"id": "C58", "title": "Sharpening of received two-phase data", "statement": "Each sharpening iteration keeps volume, mass, momentum and pressure gradient totals up to the volume fractions it cuts off at 0 and 1, keeps volume fraction and density within their bounds and consistent, leaves data that already match the target alone and then stops, takes through no face more than half the liquid of the cell, and performs at most the requested number of iterations.", "quantifier": "every blanking field, target, state, parameters and iteration count", "why_tests_cant": "fluxes through every face of every mask pattern over unbounded iterations", "anchors": ["amr-wind/overset/OversetOps.cpp: sharpen_nalu_data", "amr-wind/overset/overset_ops_routines.cpp: populate_sharpen_fluxes, process_fluxes_calc_src, calculate_pseudo_dt_flux, apply_fluxes", "amr-wind/overset/overset_ops_K.H: alpha_flux, velocity_face, gp_rho_face"]}
{"id": "C59", "title": "Inflow plane files give back what was recorded", "statement": "Planes written by a run at the selected steps and read by another give, at each recorded time, the average of the two cells that meet at the plane in every cell of the plane, for low and high planes and for both file formats; reading fills exactly the ghost cells (or ghost faces) of the plane.", "quantifier": "every field, plane, level layout, write frequency, start time and history of reads", "why_tests_cant": "every box layout and every step selection", "anchors": ["amr-wind/wind_energy/ABLBoundaryPlane.cpp: write_file, read_file, read_data_native, write_data, read_data, impl_buffer_field, populate_data", "amr-wind/utilities/index_operations.H: perpendicular_idx, face_aware_boundary_box_intersection"]}
{"id": "C60", "title": "Domain integrals count every place once, at the finest level", "statement": "The reported kinetic energy, enstrophy and wave energy equal the mean over the whole domain of the quantity taken, at each place, from the finest level with data there: covered coarse cells do not contribute, results do not depend on how the levels are split into boxes, a uniform flow gives half the density times the squared speed, and quantities averaged down give the same result with and without refinement. Still water at the declared water level has no wave energy.", "quantifier": "every properly nested mesh hierarchy, box decomposition, refinement ratio, domain size and field", "why_tests_cant": "unit tests use one or two fixed meshes; the claim is for every nested hierarchy and every field", "anchors": ["amr-wind/utilities/sampling/KineticEnergy.cpp: calculate_kinetic_energy", "amr-wind/utilities/sampling/Enstrophy.cpp: calculate_enstrophy", "amr-wind/utilities/sampling/WaveEnergy.cpp: calculate_kinetic_energy, calculate_potential_energy"]}
{"id": "C61", "title": "Field norms are means of magnitudes", "statement": "The 1- and 2-norms of a field are the volume-weighted mean and root mean square of its magnitude over the finest available data, the infinity norm is the largest magnitude in an uncovered cell, a field of uniform magnitude has that magnitude as its norm, and norm 1 <= norm 2 <= norm infinity, for cell, face and node data.", "quantifier": "every mesh hierarchy, field, number of components and data location", "why_tests_cant": "every hierarchy and field", "anchors": ["amr-wind/utilities/sampling/FieldNorms.cpp: get_norm, process_field_norms", "amr-wind/utilities/sampling/FieldNorms.H"]}
{"id": "C62", "title": "Printed extrema are attained at the printed place", "statement": "The printed largest and smallest values of the velocity components are the extrema over the cells that no finer level covers (and, with a volume fraction mask, over the cells of that phase), and the printed location is a cell centre where the value is attained.", "quantifier": "every mesh hierarchy, field and mask", "why_tests_cant": "every hierarchy and field", "anchors": ["amr-wind/utilities/diagnostics.cpp: get_field_extrema, get_vel_max, get_vel_min, get_vel_loc, PrintMaxVelLocations"]}
{"id": "C63", "title": "One time step of a transported scalar", "statement": "The amount of a scalar in the domain changes in a time step only by its sources and by what passes the domain boundary, whatever the treatment of diffusion (explicit, Crank-Nicolson, implicit), the density and the mesh mapping; in each cell the update is the documented one, with the diffusion term weighted between old and new time; a uniform scalar stays uniform in a flow of variable density; implicit diffusion creates no new extrema, Crank-Nicolson and implicit diffusion never increase the variance for any step, and explicit diffusion creates no new extrema at the step chosen from a CFL number of at most one; masked cells keep their value under explicit diffusion.", "quantifier": "every field, velocity, density, viscosity, time step, domain size, choice of periodic and closed boundaries and diffusion scheme", "why_tests_cant": "all fields and all meshes; the tests run a few steps of a few cases", "anchors": ["amr-wind/equation_systems/CompRHSOps.H: predictor_rhs, corrector_rhs, improve_explicit_diff", "amr-wind/equation_systems/DiffusionOps.H: compute_diff_term", "amr-wind/equation_systems/DiffusionOps.cpp", "amr-wind/diffusion/incflo_diffusion.cpp: average_velocity_eta_to_faces", "amr-wind/convection/incflo_mol_fluxes.cpp: compute_convective_fluxes, compute_convective_rate", "amr-wind/incflo_advance.cpp: ApplyPredictor, ApplyCorrector", "amr-wind/equation_systems/density/density_ops.H"]}
{"id": "C64", "title": "The time step respects the CFL number", "statement": "With adaptive stepping no unmasked cell of any level is crossed in one step by more than the CFL number in any direction, also counting the acceleration by the momentum sources; near a two-phase interface the outflow through all directions together is at most half the CFL number, also for prescribed velocities; explicit diffusion stays within its stability limit for momentum and scalars; masked cells do not restrict the step; the step is not shorter than necessary; the number is the documented one.", "quantifier": "every velocity, viscosity, density, force field, mask, mapping, set of levels and CFL number", "why_tests_cant": "maximum over all cells of all levels for every field", "anchors": ["amr-wind/incflo_compute_dt.cpp: compute_dt, compute_prescribe_dt", "amr-wind/core/SimTime.cpp: set_current_cfl"]}
{"id": "C65", "title": "Boundary conditions mean what the input says", "statement": "For each of the six faces the type in force is the one the input gives, the field's own entry before the general one and letter case ignored; an input that names an unknown type, a non-periodic type on a periodic direction, a type the field does not support, too few numbers, conflicting inflow functions, or no value on an inflow that needs one stops the run. Ghost cells and the diffusion operator agree on where a value is prescribed, both pressure projections hold the pressure exactly on pressure outflows, prescribed cells get the inflow or wall value of their face and no other cell is touched, walls are impermeable, fixed gradients go to the first ghost layer only, and inflow-outflow faces copy the interior exactly where the flow leaves.", "quantifier": "every input for the six faces, every periodicity, field kind, domain box, ghost cell, component, field values and inflow function", "why_tests_cant": "types, values and geometry combine in unboundedly many ways; tests pick a few input files", "anchors": ["amr-wind/boundary_conditions/BCInterface.cpp: BCIface, BCVelocity, BCScalar, BCPressure", "amr-wind/equation_systems/vof/vof_bciface.H: BCVOF, BCDensityMod", "amr-wind/core/FieldBCOps.H: DirichletOp, ConstDirichlet", "amr-wind/core/FieldFillPatchOps.H: set_inflow, set_inflow_sibling_fields", "amr-wind/boundary_conditions/FixedGradientBC.cpp", "amr-wind/boundary_conditions/MassInflowOutflowBC.cpp", "amr-wind/boundary_conditions/velocity_bcs.H, scalar_bcs.cpp", "amr-wind/diffusion/incflo_diffusion.cpp: get_diffuse_tensor_bc, get_diffuse_scalar_bc", "amr-wind/projection/incflo_apply_nodal_projection.cpp: get_projection_bc", "amr-wind/equation_systems/icns/icns_advection.cpp: get_projection_bc"]}
{"id": "C66", "title": "Inflow profiles", "statement": "The linear profile is the straight line between its two ends and constant outside, the power law has the direction of the reference velocity and speed |uref| ((z-zoffset)/zref)^shear limited to the given minimum and maximum, the lid profile vanishes at both ends and peaks at one, the two-layer profile gives each layer its velocity, and the Rankine vortex adds solid rotation inside the core and potential rotation outside, never faster than Umax, and travels with the wind.", "quantifier": "every height, position, time and parameter of the profiles", "why_tests_cant": "the profiles are continuous functions; tests sample a few points", "anchors": ["amr-wind/physics/udfs/LinearProfile.H", "amr-wind/physics/udfs/PowerLawProfile.H/.cpp", "amr-wind/physics/udfs/BurggrafLid.H", "amr-wind/physics/udfs/TwoLayer.H/.cpp", "amr-wind/physics/udfs/Rankine.H/.cpp"]}
{"id": "C67", "title": "Eddy viscosity of the large-eddy models", "statement": "For every velocity gradient, cell size, density and coefficient: the Smagorinsky viscosity is rho (Cs w)^2 sqrt(2 S:S) with w the edge of the cube of the cell volume, is zero exactly for flows that do not deform, falls with the square of the mesh and does not depend on the orientation of the axes. The AMD viscosity is positive, at most rho C h^2 |S|, returns to its floor in rigid motion and parallel shear, does not change when the axes are renumbered (or, on cubic cells, turned), and equals the model without temperature when there is no stratification anomaly. The Kosovic model is the damped Smagorinsky model without surface layer, never negative, zero inside terrain and the log-law value next to it. The one-equation model keeps 0 <= l <= w, 0 <= mu <= rho Ce w sqrt k, buoyancy production opposite in sign to the stratification and consistent with the effective heat diffusivity. Effective coefficients are laminar plus turbulent, energies and omega are clipped below, and the source terms a model injects are the union with the user list, each once.", "quantifier": "all velocity and temperature gradients, cell sizes, densities, energies, stratifications, coefficients, terrain flags, orthogonal changes of axes, lists of source term names", "why_tests_cant": "unit tests evaluate one analytic velocity field on one mesh with default coefficients; bounds, zero sets, frame independence and sign statements quantify over all gradients, meshes and coefficients", "anchors": ["amr-wind/turbulence/LES/Smagorinsky.cpp", "amr-wind/turbulence/LES/AMD.H", "amr-wind/turbulence/LES/AMDNoTherm.cpp", "amr-wind/turbulence/LES/Kosovic.cpp", "amr-wind/turbulence/LES/OneEqKsgs.cpp", "amr-wind/turbulence/TurbModelBase.H", "amr-wind/turbulence/turb_utils.cpp"]}
{"id": "C68", "title": "k-omega SST model and its hybrid version", "statement": "For every physical state: the blending function lies in [0,1) and every blended coefficient between its two parents; the eddy viscosity lies between 0 and rho k / omega and respects the Bradshaw limit; moving away from the wall the blending falls and the viscosity grows; production is the smaller of mu S^2 and ten times dissipation; the implicit treatment decays energy by exactly beta* rho k omega and keeps it nonnegative for every time step; the explicit one has the full budget with ambient terms. The hybrid interpolates between its RANS and LES lengths and coincides with the SST model within half a cell of the wall. Deviations (half the dissipation in explicit predictors, lost ambient terms, doubled omega decay, inactive elevating function) are refuted by counterexample.", "quantifier": "all coefficients, cell states (density, viscosity, energy, omega, wall distance, strain, gradients), time steps, diffusion treatments and mesh sizes", "why_tests_cant": "tests compare a few cells with hand-computed numbers; the bounds, the monotonicity in wall distance and the budgets must hold for every state and time step", "anchors": ["amr-wind/turbulence/RANS/KOmegaSST.cpp", "amr-wind/turbulence/RANS/KOmegaSSTIDDES.cpp", "amr-wind/equation_systems/tke/source_terms/KwSSTSrc.cpp", "amr-wind/equation_systems/sdr/source_terms/SDRSrc.cpp"]}
{"id": "C69", "title": "Axell's k-l model", "statement": "For every height, energy, stratification, shear and previous length: the limited Richardson number stays above -3, is monotone and leaves values above -1 alone; the stability functions and the Prandtl number stay positive and bounded and agree to one percent; the wall length is below 30 m and below 0.41 z; the length is at most the buoyancy length in stable air and between one and a fixed multiple of the wall length in unstable air; viscosity and shear production are nonnegative, buoyancy production has the sign of instability, blanked cells have none, and the effective heat diffusivity exceeds the laminar one.", "quantifier": "all heights, positive energies, stratifications, strain rates, previous lengths, blanking values between 0 and 1, coefficients with Cmu at least 0.351", "why_tests_cant": "the rational stability functions have poles just outside the limited range; only a proof over the whole range shows that no state reaches them", "anchors": ["amr-wind/turbulence/RANS/KLAxell.cpp"]}
{"id": "C70", "title": "Actuator disk: points, areas and averages", "statement": "For every accepted disk: the area sections are positive and add up ring by ring to the disk; velocity and density are averaged by area, the average lies between the smallest and largest sampled value and a uniform flow is averaged to itself; the sampling points lie in the disk plane at the middle radius of their ring, equally spaced around it, and the upstream points are the same pattern the given number of diameters along the sampling direction; yaw is a compass bearing and tilt an elevation angle.", "quantifier": "all centres, normals, sampling directions, diameters, numbers of rings and points per ring, sampled velocities and densities, yaw and tilt angles", "why_tests_cant": "the numbers of rings and points and the directions are free inputs; a test fixes one disk", "anchors": ["amr-wind/wind_energy/actuator/disk/disk_ops.cpp", "amr-wind/wind_energy/actuator/disk/disk_ops.H", "amr-wind/core/vs"]}
{"id": "C71", "title": "Uniform thrust disk: thrust and its spreading", "statement": "For every accepted disk, thrust table, reference velocity and density: the ring forces are pressure times ring area along the normal and add up to 1/2 rho U^2 Ct A, without side force; in a wind against the normal the disk takes energy; with linear spreading the source at every point of space is the pressure times a Gaussian in the distance from the plane times a radial profile that is 1 between the first and last ring centre; the Gaussian force points lie on the disk.", "quantifier": "all disks, tables, velocities, densities and points in space", "why_tests_cant": "the identity between the sum of hat functions and the profile must hold for every number of rings and every radius", "anchors": ["amr-wind/wind_energy/actuator/disk/uniform_ct_ops.H", "amr-wind/wind_energy/actuator/disk/disk_ops.H", "amr-wind/wind_energy/actuator/disk/disk_spreading.H", "amr-wind/wind_energy/actuator/actuator_utils.H"]}
{"id": "C72", "title": "Joukowsky disk: thrust, torque and power", "statement": "For every accepted disk, tables, corrections and solid-body term for which the thrust equation is solvable: the forces add up along the normal to 1/2 rho U^2 Ct A, and active wake control changes that only when its mode is a multiple of the number of points per ring; every force is a circulation, common to the ring and not negative for an ordinary rotor, times the velocity seen by the blade turned by a right angle; the reported power is the rotation rate times the torque of the applied forces and the power coefficient and tip speed ratio follow; there is no side force in an axisymmetric flow; tip and root corrections are fractions, monotone along the blade.", "quantifier": "all disks, numbers of rings and points, tables, corrections, amplitudes, modes, times, reference and disk velocities", "why_tests_cant": "the circulation solves a quadratic whose coefficients are sums over the rings; the thrust identity holds only because the same sums recur in the forces, for every number of rings", "anchors": ["amr-wind/wind_energy/actuator/disk/Joukowsky_ops.H", "amr-wind/wind_energy/actuator/disk/Joukowsky_ops.cpp", "amr-wind/wind_energy/actuator/disk/Joukowsky.H"]}
{"id": "C73", "title": "The box of an actuator disk covers what the disk acts on", "statement": "For every kernel, level and tile: a cell whose centre lies in the disk box receives the kernel value whichever tile it is in, other cells of the tile the kernel value or nothing, cells of other tiles nothing; the box holds everything within three widths of the disk plane and two rings outside the rim, so the result depends on the tiling only below exp(-9) of the largest value.", "quantifier": "all disks, normals, levels, tiles and cells", "why_tests_cant": "the box is computed from one signed diagonal vector and shrinks for some normals; tests use normals along an axis", "anchors": ["amr-wind/wind_energy/actuator/disk/disk_ops.cpp", "amr-wind/wind_energy/actuator/disk/disk_spreading.H", "amr-wind/utilities/index_operations.cpp"]}
{"id": "C74", "title": "The points of a wing actuator follow its prescribed motion", "statement": "A wing of n points has them evenly spaced from start to end; the widths they stand for add up to the length of the wing. After any number of time steps of any sizes every point is where the prescribed motion (none, linear, sinusoidal) puts it, velocities are sampled at the position at the beginning of the step and the force is placed half-way; a restarted run continues the motion.", "quantifier": "all wings with two or more points, motions, start times and sequences of time steps, and all restart times", "why_tests_cant": "positions are updated by increments; the error of a wrong increment shows after many steps of varying size or after a restart", "anchors": ["amr-wind/wind_energy/actuator/wing/wing_ops.H", "amr-wind/wind_energy/actuator/wing/wing_ops.cpp", "amr-wind/wind_energy/actuator/wing/fixed_wing_ops.H"]}
{"id": "C75", "title": "The force of a wing is lift and drag of the wind across the span", "statement": "For every orientation, wing velocity, wind and polar: the axes of the wing are orthonormal and right-handed; the force has no part along the span, along the relative wind across the span it is minus dynamic pressure times chord, width and drag coefficient, at right angles to it minus the same with the lift coefficient, the coefficients taken at the pitch plus the angle of the wind; only the relative velocity matters; the force takes energy from the flow when the drag coefficient is not negative; flags switch off components only; reported totals are the sums.", "quantifier": "all wings, winds, velocities, pitches, polars, chords and force flags", "why_tests_cant": "depends on chains of cross products and on the quadrant of the angle; tests use one orientation", "anchors": ["amr-wind/wind_energy/actuator/wing/wing_ops.H", "amr-wind/wind_energy/actuator/wing/wing_ops.cpp", "amr-wind/wind_energy/actuator/aero/AirfoilTable.cpp", "amr-wind/wind_energy/actuator/wing/flat_plate_ops.H"]}
{"id": "C76", "title": "A wing's force is spread by a normalised Gaussian inside a box that covers it", "statement": "The kernel is the Gaussian of unit integral in widths along chord, span and thickness about the mid-step position, cut at four widths; equal widths make orientation irrelevant; a two-dimensional wing spreads the force per unit span with the plane Gaussian. The bounding box holds, at all times of the run, all that is within three widths of any point, so that the result depends on the tiling only below exp(-9) of the peak.", "quantifier": "all wings, motions, times, widths, chords, positions and tiles", "why_tests_cant": "the box is computed once for the whole run from the inputs; tests look at one time and one chord", "anchors": ["amr-wind/wind_energy/actuator/wing/wing_ops.H", "amr-wind/wind_energy/actuator/wing/wing_ops.cpp", "amr-wind/wind_energy/actuator/wing/fixed_wing_ops.H", "amr-wind/wind_energy/actuator/ActSrcLineOp.H", "amr-wind/wind_energy/actuator/actuator_utils.H"]}
{"id": "C77", "title": "The lifting line correction replaces the induced velocity of the coarse kernel by that of the optimal one", "statement": "With the filtered lifting line correction on, the velocity that a wing's force points use is the sampled velocity plus a correction that relaxes geometrically, with the given factor, toward the difference of the velocities induced by the shed circulation for the optimal and for the used kernel width. The circulation comes from the lift only. The correction is zero when the two widths agree, does not act before its start time, has no component along a direction in which neither force nor velocity has one, and the point spacing it generates resolves the optimal width.", "quantifier": "all wings, point positions, chords, widths, forces, velocities, relaxation factors and sequences of steps", "why_tests_cant": "the correction feeds back into the forces over time; tests look at single steps of one elliptic wing", "anchors": ["amr-wind/wind_energy/actuator/FLLC.H", "amr-wind/wind_energy/actuator/FLLC.cpp", "amr-wind/wind_energy/actuator/FLLCOp.H", "amr-wind/wind_energy/actuator/wing/wing_ops.H"]}
{"id": "C78", "title": "Actuators over several processes see the flow at their own points", "statement": "However the mesh is distributed, every process with a cell inside an actuator's bounding box takes part in it, each actuator has one root process which takes part in it, roots are spread evenly with processes that the actuator reaches preferred, and each process receives for each of its actuators, in order, the velocity and density interpolated at that actuator's points, wherever the points lie and in whatever order data arrive. Interpolation is exact for fields linear in each coordinate and stays within the values around the point. A moving actuator is at the same place on all its processes. An actuator is found by its label.", "quantifier": "all numbers of processes, mesh hierarchies and distributions, bounding boxes, numbers of actuators and points, arrival orders of the data, and sequences of steps and regrids", "why_tests_cant": "depends on the distribution of boxes over processes, the order of communication and the history of regrids; unit tests run on one or two processes with one layout", "anchors": ["amr-wind/wind_energy/actuator/actuator_utils.cpp: determine_influenced_procs, determine_root_proc", "amr-wind/wind_energy/actuator/Actuator.cpp: post_init_actions, post_regrid_actions, update_positions, update_velocities, get_act_bylabel", "amr-wind/wind_energy/actuator/ActuatorContainer.cpp: initialize_container, update_positions, sample_fields", "amr-wind/wind_energy/actuator/actuator_opsI.H: determine_influenced_procs"]}
{"id": "C79", "title": "Stokes waves solve the water-wave problem to their order", "statement": "For each Stokes order from 2 to 5 the wave that is generated is the gradient of a potential moving with the wave, is impermeable at the bottom, and misses the two free-surface conditions (a particle of the surface stays on it, and the pressure is constant along it) by an amount of the next power of the steepness; its mean level is the still water level and its mean velocity is zero. Other orders are refused. The velocity under a crest decreases with depth. The wave-number iteration uses the derivative of the function it solves.", "quantifier": "all orders, wave lengths, depths, heights, still water levels, phases, times and positions", "why_tests_cant": "the coefficients are rational functions of the depth with up to nine terms; a wrong digit changes the wave by an amount of the same size as the truncation, and unit tests compare a few values with tables for a few depths", "anchors": ["amr-wind/ocean_waves/relaxation_zones/stokes_waves_K.H: stokes_coefficients, stokes_waves, stokes_wave_length"]}
{"id": "C80", "title": "Momentum and scalars move with the mass across the interface", "statement": "In two-phase flow the density of a cell changes by exactly the mass that the faces carry, with the face densities used for momentum and scalars. A uniform velocity (or scalar) therefore stays uniform across the interface, whatever the interface shape and density ratio; momentum of a closed or periodic domain is conserved; away from the interface the flux is that of the single-phase scheme times the density of the phase.", "quantifier": "all interface shapes, face velocities within the Courant limit, density pairs, sweep orders, reconstructions that keep constants, orders of the scalar equations", "why_tests_cant": "the mass balance closes through three sweeps of geometric fluxes and a density mixture, for every interface shape; unit tests check a few cells and one sweep order", "anchors": ["amr-wind/equation_systems/vof/vof_momentum_flux.H: hybrid_fluxes", "amr-wind/equation_systems/vof/vof_advection.H: AdvectionOp<VOF, fvm::Godunov>", "amr-wind/physics/multiphase/MultiPhase.cpp: calculate_advected_facedensity, set_density_via_vof, set_nph_density", "amr-wind/equation_systems/icns/icns_advection.H: AdvectionOp<ICNS, fvm::Godunov>", "amr-wind/equation_systems/AdvOp_Godunov.H: AdvectionOp", "amr-wind/incflo_advance.cpp: incflo::ApplyPredictor"]}
{"id": "C81", "title": "Profile assimilation pulls the planar means towards the given profiles", "statement": "With profile assimilation the source at each height moves the planar mean, over a step, by the given gain times its distance to the target profile at that time and height (direct), or by the gain times the weighted least-squares cubic of these distances (indirect). Below the transition layer an indirect-to-direct forcing is the cubic, above it the direct one, with a linear change between; a transition to a constant leaves the lower part unchanged, brings the slope linearly to zero and is constant above. A profile error that is a cubic is followed exactly. In tendency mode the source is the tabulated tendency, interpolated.", "quantifier": "all target tables, times, steps, gains, averaging heights, planar means, weights and transition layers", "why_tests_cant": "the normal equations, their explicit inverse and the blends have to be right for every set of heights and weights; the unit tests compare one profile with one reference", "anchors": ["amr-wind/wind_energy/ABLMesoscaleForcing.cpp: set_transition_weighting, update_weights, indirect_forcing_init, invert_mat, constant_forcing_transition, blend_forcings", "amr-wind/equation_systems/icns/source_terms/ABLMesoForcingMom.cpp: mean_velocity_heights, operator()", "amr-wind/equation_systems/temperature/source_terms/ABLMesoForcingTemp.cpp: mean_temperature_heights, operator()", "amr-wind/wind_energy/ABLMesoscaleInput.cpp: ABLMesoscaleInput"]}
{"id": "C82", "title": "A scanning lidar or radar samples along its beam", "statement": "At every time a lidar samples along a segment of the given length from its origin, in the direction with the azimuth and elevation its table gives for that time; a periodic table repeats. A radar swings between minus and plus half its sweep at the given angular speed with a rest at each end and takes the next elevation after each swing; each of its beams is a cone of rays around that direction with the given half-opening and equally spaced points from the origin to the beam length. The line-of-sight velocity is the mean, over the rays of a beam, of the velocity component along the beam, so that a uniform wind is reported as its component along the beam (times the mean cosine of the cone). Beams are one sampling interval apart and keep up with the simulation time.", "quantifier": "all tables, times, origins, lengths, orientations, sweeps, speeds, rests, elevations, opening angles, sampling frequencies, step sizes and wind vectors", "why_tests_cant": "directions are compositions of four rotations that depend on time through nested periodic functions, and the clock of the instrument has a history; unit tests check a few locations at one time with one step size", "anchors": ["amr-wind/utilities/sampling/LidarSampler.cpp: initialize, update_sampling_locations", "amr-wind/utilities/sampling/RadarSampler.cpp: initialize, update_sampling_locations, determine_operation_phase, determine_current_sweep_angle, new_cone, calc_lineofsight_velocity, line_average, post_sample_actions, output_netcdf_field", "amr-wind/utilities/sampling/SamplingUtils.cpp: rotate_euler_vector, unit_projection_matrix, spherical_cap_truncated_normal, spherical_cap_quadrature", "amr-wind/utilities/sampling/Sampling.cpp: convert_velocity_lineofsight"]}
{"id": "C83", "title": "Refinement by the flow refines exactly the cells past the value given for their level", "statement": "A cell of a level is tagged by a refinement criterion exactly if a value was given for that level and the quantity of the criterion exceeds it in that cell: the field itself or its jump to a neighbour (inside the given box), the magnitude of its gradient, the curvature of its level surfaces, the Q criterion or the magnitude of the vorticity of the velocity; around overset interfaces, the cells between field and fringe. These quantities are exact for fields that are quadratic in space. Levels without a value are not refined. Criteria add up in any order. Incomplete input is refused.", "quantifier": "all fields, cells, meshes, levels, lists of values, boxes, blanking values and lists of criteria", "why_tests_cant": "a wrong stencil or scale still refines some cells; the unit tests look at whether anything was refined for one field", "anchors": ["amr-wind/utilities/tagging/FieldRefinement.H", "amr-wind/utilities/tagging/FieldRefinement.cpp", "amr-wind/utilities/tagging/GradientMagRefinement.cpp", "amr-wind/utilities/tagging/CurvatureRefinement.cpp", "amr-wind/utilities/tagging/QCriterionRefinement.cpp", "amr-wind/utilities/tagging/VorticityMagRefinement.cpp", "amr-wind/utilities/tagging/OversetRefinement.cpp", "amr-wind/utilities/tagging/RefinementCriteria.cpp: tag_cells"]}
{"id": "C84", "title": "Samples on the air-water interface are where the interface is", "statement": "Each point of the sampling plane is looked for in exactly the uncovered cells its line passes through, on whatever process or level they are, as long as a cell has room for its points. The height reported is the greatest that such a cell offers below the previous instance, or the bottom of the domain, however the cells are shared out and ordered. For layers of water and air at least two cells thick the instances are the interfaces from the top down and then the bottom; a reconstructed plane is met where its equation holds; with linear interpolation the volume fraction there is one half.", "quantifier": "all planes with end after start, all meshes, refinements and distributions of cells over processes, all numbers of points and instances, all stacks of layers, all planes and all linear volume fractions", "why_tests_cant": "Tests sample a flat or tilted surface on one mesh with one instance and one point per cell; which cells a point belongs to depends on how the plane, the levels and the cells lie to each other.", "anchors": ["amr-wind/utilities/sampling/FreeSurfaceSampler.H", "amr-wind/utilities/sampling/FreeSurfaceSampler.cpp: initialize, check_bounds, sampling_locations, update_sampling_locations, post_regrid_actions"]}
{"id": "C85", "title": "Turbulence from a file enters as written, at its time and place", "statement": "After every history of steps and regrids the force in each cell is that of the present time: in the cells of the box, which is turned into the wind of the given compass direction and centred at the given place, the density times the turbulence times the mean wind plus half the turbulence, smeared along the wind by a Gaussian; zero in all other cells, and everywhere after the given duration. The turbulence is the file repeated periodically, passing with the reference speed and interpolated linearly: the values of the file at its points, within their range between them, without jumps also where the file starts again. Every read is inside the planes in memory. The mean wind follows the profile given.", "quantifier": "all files and boxes filled by the spacings of the file, all wind directions, places, profiles and smearing lengths, all histories of step times and regrids, all cells and densities", "why_tests_cant": "Tests load one small file and compare the first planes; the state carried from step to step, the periodic wrap and the edges of the box depend on the history and on where cells lie.", "anchors": ["amr-wind/physics/SyntheticTurbulence.cpp", "amr-wind/physics/SyntheticTurbulence.H", "amr-wind/equation_systems/icns/source_terms/SynthTurbForcing.cpp", "amr-wind/equation_systems/PDEOps.H: multiply_rho"]}
{"id": "C86", "title": "The initial atmosphere is the one described in the input", "statement": "A new simulation starts, in every cell of every level, with the density of the input, the temperature that varies linearly between the given heights and is constant outside them, and the wind of the input: uniform, from the time table, linear between bottom and top, from a profile file in the height above the terrain, or from a NetCDF profile. Waves added to the wind are nowhere larger than asked, reach that size at the reference height, vanish on the ground and leave the mean wind at every height unchanged; random numbers are added to the temperature below the cut-off height only. The turbulence energy is constant, the given decaying profile, or the column of the profile file. Velocities from a file arrive in the cells with the same indices, however the level is cut into boxes.", "quantifier": "all tables of increasing heights, all inputs and defaults, all cells, domains and terrains, all random numbers, all numbers of waves and cells, all boxes", "why_tests_cant": "Tests compare one profile on one mesh that starts at height zero and whose table reaches above the domain; which piece of a table a cell falls in, and what happens beyond the table, depends on input and mesh.", "anchors": ["amr-wind/wind_energy/ABLFieldInit.cpp", "amr-wind/wind_energy/ABLFieldInit.H", "amr-wind/wind_energy/ABLFieldInitFile.cpp", "amr-wind/wind_energy/ABL.cpp: initialize_fields", "amr-wind/utilities/linear_interpolation.H"]}
{"id": "C87", "title": "Modulated power law inflow: direction, profile and bulk velocity", "statement": "With the modulated power law, after any run the inflow blows from the given direction minus the rate times the time spent between start and stop, up to one time step, with the given speed and no vertical part; every inflow velocity is along the wind, a power law of the height capped at the given factor plus a smooth step at the given height; the step is sized so that the mean over the height of the domain is the wanted bulk velocity (exactly without shear; with shear up to what the step contributes below the height of the cap); the temperature is that of the table with random numbers below the cut-off only. A restart loses the turning so far, a cap below one breaks the balance, and heights above the table get the temperature of the ground.", "quantifier": "Every set of inputs, every sequence of steps, every height.", "why_tests_cant": "The direction depends on the whole history of steps, and the bulk velocity is an integral of the profile for every choice of the parameters.", "anchors": ["amr-wind/wind_energy/ABLModulatedPowerLaw.cpp: pre_advance_work, set_velocity, set_temperature", "amr-wind/wind_energy/ABLModulatedPowerLaw.H", "amr-wind/wind_energy/ABLFillMPL.cpp"]}
{"id": "C88", "title": "Turbines computed by an external solver: steps, files, restarts and exchange", "statement": "A turbine coupled to an external solver takes the same whole number of solver steps in every flow step, its clock stays within the tolerance of that of the flow, and it sees in every flow step the velocities sampled in that step; these are written to a file in order, and solver checkpoints fall together with flow checkpoints at multiples of the interval; a replay from the file or a restart brings the solver to the state of the interrupted run. The solver must be able to run to the end of the simulation and have the density of the flow. Forces, positions and orientations reach every process with the sign, base and transposition they need, every force point belongs to one part, and the nacelle is dragged along the sampled velocity. Known breaches: exact multiples refused after rounding, a replay that starts one step ahead and with another initial solution, stale velocity files, an initial solution computed again after a restart, checkpoints that part after a restart, a duration measured with the present step, blade velocities taken from the wrong points and relative velocities of the step before.", "quantifier": "Every external solver (any states, any initial solution, any step), every number of sub-steps, interval and sequence of velocities, every number of points.", "why_tests_cant": "The state of the solver depends on the whole history of calls, files and restarts, and the solver is not part of the code: the claims have to hold for any.", "anchors": ["amr-wind/wind_energy/actuator/turbine/external/ExtTurbIface.H", "amr-wind/wind_energy/actuator/turbine/external/turbine_external_ops.H", "amr-wind/wind_energy/actuator/turbine/external/turbine_external_utils.H", "amr-wind/wind_energy/actuator/turbine/fast/FastIface.cpp", "amr-wind/wind_energy/actuator/turbine/fast/turbine_fast_ops.H", "amr-wind/wind_energy/actuator/Actuator.cpp"]}
{"id": "C89", "title": "Immersed bodies: shape, velocity inside, masked nodes, over a run", "statement": "The level set of the immersed bodies is negative exactly inside one of them and its size is the distance from the surface (spheres, cylinders, inside boxes); every pressure solve is handed the given velocity in all cells inside the bodies and the flow velocity elsewhere; the divergence is taken out at exactly the nodes of the bodies; normals are unit vectors in the layer next to the surface and zero elsewhere; the manufactured solution has no divergence. Known breaches: the height of a cylinder is ignored; outside boxes the level set is zero in the planes of the faces; with several bodies the velocity of the last one holds in all; nothing restores the velocity after the solve; a change of the mesh removes the bodies from the new levels and the mask from all.", "quantifier": "Every list of bodies, every cell and node, every history of pressure corrections and changes of the mesh, any effect of the solve.", "why_tests_cant": "The bodies have to hold at all points of space and through every history of solves and changes of the mesh, which no test run covers.", "anchors": ["amr-wind/immersed_boundary/IB.cpp: post_init_actions, update_velocities, post_regrid_actions, pre_pressure_correction_work, post_pressure_correction_work", "amr-wind/immersed_boundary/bluff_body/bluff_body_ops.cpp: apply_mms_vel, apply_dirichlet_vel", "amr-wind/immersed_boundary/bluff_body/box_ops.H", "amr-wind/immersed_boundary/bluff_body/cylinder_ops.H", "amr-wind/immersed_boundary/bluff_body/sphere_ops.H", "amr-wind/projection/incflo_apply_nodal_projection.cpp", "amr-wind/incflo.cpp: init_amr_wind_modules, regrid_and_update"]}
{"id": "C90", "title": "Flows in closed form: what is set, what is compared with, and the norm", "statement": "The flows a verification case starts from and is compared with are what they are said to be: the convecting vortex with its pressure gradient and the Ekman spiral solve the equations of motion at every point and time, the lid-driven flow with its body force is steady, the Taylor-Green vortex, the dipole, the deforming patch and the waves in the channel are without divergence, the laminar channel is the parabola between its walls, the patch returns and the disk turns once in its period, pulses are set to their averages over the cells, and the reported norm is zero exactly for the exact solution and equals a uniform deviation, on every mesh.", "quantifier": "all points, times, viscosities, periods, domains, cell sizes, widths and amplitudes; all lists of cells of a composite, mapped, blanked mesh; all histories of steps, regrids and restarts for the force", "why_tests_cant": "A test evaluates a profile at some cells and compares with the same formula; whether the formula solves the equations, and for which domains and densities, is a statement about derivatives at every point.", "anchors": ["amr-wind/physics/ConvectingTaylorVortex.cpp", "amr-wind/physics/EkmanSpiral.cpp", "amr-wind/physics/BurggrafFlow.cpp", "amr-wind/physics/TaylorGreenVortex.cpp", "amr-wind/physics/ChannelFlow.cpp", "amr-wind/physics/VortexDipole.cpp", "amr-wind/physics/VortexPatch.cpp", "amr-wind/physics/ZalesakDisk.cpp", "amr-wind/physics/ScalarAdvection.cpp"]}
{"id": "C91", "title": "What the two-phase, buoyant and vortical cases start from", "statement": "Every case starts from the state it is asked for: the dam stands where it is placed, the drop carries the momentum of its liquid, the tank starts from the surface asked for with the pressure that balances gravity, the wave has its length, level and speed, the layers have their densities on their sides of the interface, the bubble its value, the scalar on the turning disk is compared with what was set turned along, and the vortex rings start without divergence and with the circulation asked for.", "quantifier": "all positions, sizes, levels, densities, gravities, domains and points; all vector potentials on the nodes for the rings; all lists of modes and phases", "why_tests_cant": "The regression cases stand at the origin, with a level of zero, in the unit domain and are compared with their own earlier output; a placement elsewhere, another gravity or the circulation of a ring is not looked at.", "anchors": ["amr-wind/physics/multiphase/DamBreak.cpp", "amr-wind/physics/multiphase/RainDrop.cpp", "amr-wind/physics/multiphase/SloshingTank.cpp", "amr-wind/physics/multiphase/BreakingWaves.cpp", "amr-wind/physics/multiphase/ZalesakDiskScalarVel.cpp", "amr-wind/physics/RayleighTaylorFieldInit.cpp", "amr-wind/physics/BoussinesqBubbleFieldInit.cpp", "amr-wind/physics/VortexRing.cpp"]}
{"id": "C92", "title": "Wall models of the channel", "statement": "With the wall models of the channel the stress of a wall is that of the law of the wall at the height of the cell whose velocity is taken, on every level and in every domain; it lies along the velocity, holds the fluid back at the floor and at the lid, and for a flow driven by a body force balances it. The search for the friction velocity gives a friction velocity that obeys the law to the tolerance, or stops the run. The velocity one cell size above the wall is found by interpolation in any boxes, and waves add the stress of the wind that blows up their slopes.", "quantifier": "all velocities, body forces, heights, cell sizes, levels, viscosities, densities, boxes, wave parameters and times; all search functions", "why_tests_cant": "the search and the interpolation depend on real parameters, and the failures appear only at particular floors, levels, boxes and numbers of steps", "anchors": ["amr-wind/boundary_conditions/wall_models/LogLaw.H: get_utau", "amr-wind/boundary_conditions/wall_models/MOSD.H: get_dyn_tau", "amr-wind/boundary_conditions/wall_models/ShearStressSimple.H: SimpleShearSchumann, SimpleShearLogLaw", "amr-wind/boundary_conditions/wall_models/WallFunction.cpp: VelWallFunc"]}
{"id": "C93", "title": "Reference state of the anelastic boundary layer", "statement": "With the anelastic option the reference state is dry air of the given potential temperature (ideal gas, ratio of specific heats 1.4) at the pressure asked for at the floor, in hydrostatic balance cell by cell on every level; its density does not rise with the height and does not depend on the guess; the run stops if the state is not found. The reference pressure at every node is that of the air at its height, for any number of levels, and air in the reference state is not moved by gravity.", "quantifier": "all bottom pressures, potential temperatures, cell heights, gravities, numbers of cells, guesses and numbers of levels", "why_tests_cant": "the balance couples all cells of a column through a search of real numbers, and the nodes and levels at fault are not looked at by any test", "anchors": ["amr-wind/wind_energy/ABLAnelastic.cpp: ABLAnelastic::initialize_isentropic_hse, initialize_data", "amr-wind/eos_models/EOSModel.H: GammaLaw", "amr-wind/utilities/MultiLevelVector.cpp: resize, copy_to_field", "amr-wind/equation_systems/icns/source_terms/GravityForcing.cpp: operator()"]}
{"id": "C94", "title": "Subvolume outputs", "statement": "A subvolume output holds the cells asked for: from the coarsest level with the cell size asked for, as many as asked for, from the node that is the origin, all of them existing; inputs that fit no level, no node or no cells are refused; a new mesh re-evaluates the box. Every component of the output is the component of the field its name says, for any list of real, integer and derived fields.", "quantifier": "all origins, cell sizes, numbers of cells, levels, meshes and sequences of meshes; all lists of fields and numbers of components", "why_tests_cant": "component bookkeeping depends on the whole list of fields, and the meshes of a run are not known in advance", "anchors": ["amr-wind/utilities/subvolume/RectangularSubvolume.cpp: evaluate_inputs", "amr-wind/utilities/subvolume/Subvolume.cpp: initialize, post_regrid_actions, output_actions", "amr-wind/utilities/subvolume/SubvolumeBase.H: post_regrid_actions"]}
{"id": "C95", "title": "Waves at the inflow boundary", "statement": "Where waves come in through a side of the domain, the cell one step outside has their volume fraction, the velocity of the waves where it is wet, the velocity of the boundary condition where it is dry, zero velocity next to terrain, and the density of the mixture; the faces on the side carry the velocity of the waves across it; nothing else is changed, and nothing at all when boundary planes are read. Every fill of the boundary, in the whole run, has the waves of the time it is asked for.", "quantifier": "all domains, arrays, periodic directions, boundary types, wave fields and terrain; all sequences of times and numbers of fixed-point iterations", "why_tests_cant": "the fills are spread over the step and depend on the order of hooks; cells depend on all combinations of sides", "anchors": ["amr-wind/ocean_waves/boundary_ops/OceanWavesBoundary.cpp: set_velocity, set_vof, set_density, set_inflow_sibling_velocity", "amr-wind/ocean_waves/boundary_ops/OceanWavesFillInflow.cpp: fillpatch_sibling_fields", "amr-wind/ocean_waves/OceanWaves.cpp: pre_advance_work, pre_predictor_work", "amr-wind/utilities/index_operations.H: face_aware_boundary_box_intersection"]}
{"id": "C96", "title": "Statistics of the atmospheric boundary layer", "statement": "Statistics are written exactly in the steps the output frequency asks for, with the time they belong to. The height of the inversion is the mean over the columns of the height where the temperature rises most, however the columns are shared out among the processes; the convective velocity follows from it and the heat flux. Every variable of the file is written and holds the quantity of its name, the terms of the energy budget close, and all processes take part in the same averages.", "quantifier": "all frequencies, steps, formats, temperature fields, sizes of the domain, ways to share out the columns, and all combinations of optional outputs", "why_tests_cant": "a wrong column in a file looks like physics; the processes and the temperature are arbitrary", "anchors": ["amr-wind/wind_energy/ABLStats.cpp: initialize, post_advance_work, compute_zi, process_output, write_ascii, prepare_netcdf_file, write_netcdf, calc_sfs_stress_avgs, calc_tke_diffusion", "amr-wind/utilities/SecondMomentAveraging.cpp: SecondMomentAveraging", "amr-wind/utilities/ThirdMomentAveraging.cpp: ThirdMomentAveraging"]}
{"id": "C97", "title": "Waves read from the file of another simulation", "statement": "At every time of a run the target of the relaxation zones is the wave of the file at that time: interpolated linearly between the two steps of the file around it, whatever the steps of the simulation, from whichever step of the file it starts, over and over when the file is shorter than the run, the same after a restart and on every process.", "quantifier": "all files, first steps, time steps (also longer than those of the file), sequences of updates, restarts and sets of processes", "why_tests_cant": "the state carries over from update to update; the weight of an update depends on the whole history, on the first step and on the end of the file", "anchors": ["amr-wind/ocean_waves/relaxation_zones/waves2amr_ops.H: evaluate_read_resize, update_offset_timestep, populate_fields_all_levels, time_interpolate_wave_fields, UpdateTargetFieldsOp", "amr-wind/ocean_waves/relaxation_zones/W2AWaves.H: W2AWavesData", "amr-wind/ocean_waves/OceanWaves.cpp: post_init_actions, pre_advance_work, pre_predictor_work"]}
{"id": "C98", "title": "Drag of forests", "statement": "After a start, a restart, any number of regrids and time steps, on every level, the drag of a cell is the sum, over the forests of the file its centre is in, of drag coefficient times leaf area density at its height; no forest is missed or counted twice, whatever the division into boxes; the number shown is that of the last such forest. The density of the second type is largest at the given height, falls off from there, and integrates to the leaf area index; a uniform tree gives a column of cells the leaf area index up to half a cell.", "quantifier": "all forest files, meshes, divisions into boxes, histories of starts, restarts, regrids and steps, earlier contents of the fields, trees and heights", "why_tests_cant": "the drag is added forest by forest on clipped boxes and must not add up over regrids; the shape of the profile is a statement about all heights", "anchors": ["amr-wind/physics/ForestDrag.H: Forest", "amr-wind/physics/ForestDrag.cpp: initialize_fields, post_regrid_actions, read_forest", "amr-wind/utilities/index_operations.cpp: realbox_to_box", "amr-wind/utilities/integrals.H: trapz", "amr-wind/incflo.cpp: init_mesh, regrid_and_update, MakeNewLevelFromScratch"]}
{"id": "C99", "title": "Properties of the fluid", "statement": "Viscosity, thermal and scalar diffusivity, expansion coefficient and reference temperature in every cell are those of the input (the current key before the older ones), for one fluid or weighed between two; the effective values add the eddy viscosity over the turbulent Prandtl or Schmidt number; buoyancy is gravity times expansion coefficient times the difference to the reference temperature, none in water; a missing reference temperature is not used.", "quantifier": "all inputs, fluid models, cells and ghost cells, scalar names, temperatures, volume fractions and level sets", "why_tests_cant": "the values depend on which of many keys are present and on the fields of the run; a wrong default changes every result without an error", "anchors": ["amr-wind/transport_models/ConstTransport.H: ConstTransport", "amr-wind/transport_models/TwoPhaseTransport.H: TwoPhaseTransport", "amr-wind/turbulence/TurbModelBase.H: visc_update, alpha_update, scal_diff_update", "amr-wind/equation_systems/icns/source_terms/BoussinesqBuoyancy.cpp: operator()"]}
{"id": "C100", "title": "Own section over common section of the input", "statement": "An entry of a turbine or other named object in its own section of the input replaces that of the section common to its kind, entry by entry, else the common entry is used, else the default; a required entry that is in neither stops the run; the turbine built has exactly these values, with the tower and all points within one and a quarter radii of the hub in its box; corrections that need a line are refused for a disk.", "quantifier": "all contents of the two sections, all keys, kinds of values and lengths of lists", "why_tests_cant": "each run has one input file; which of the two sections an entry comes from is visible only when both hold it", "anchors": ["amr-wind/core/MultiParser.H: MultiParser", "amr-wind/wind_energy/actuator/turbine/turbine_utils.cpp: read_inputs", "amr-wind/wind_energy/actuator/Actuator.cpp: pre_init_actions"]}
{"id": "C101", "title": "Turbine force spread as a disk", "statement": "A turbine given as lines for its blades and spread as a disk puts into a cell the blade forces times the even share of all directions around the axis and a radial and axial weight that sum to one, and the tower and hub force once; the result does not depend on how the mesh is cut into tiles.", "quantifier": "all blade counts, points, forces, spacings, rotor directions, cells and tilings", "why_tests_cant": "the weights depend on the distance of the points, the number of blades and the tile of a cell; a test has one layout", "anchors": ["amr-wind/wind_energy/actuator/turbine/ActSrcDiskOp_Turbine.H: ActSrcOp"]}
{"id": "C102", "title": "Options of the linear solvers", "statement": "Each documented option of a linear solver reaches the solver: the equation's own section before the common one before the documented value; the bottom solver is the one named, and an unknown name or one the program was not built with stops the run.", "quantifier": "all contents of the sections, all names, builds with and without hypre", "why_tests_cant": "an option that is dropped leaves a run that converges a little better or worse; no test can tell from the result", "anchors": ["amr-wind/core/MLMGOptions.cpp: parse_options, operator()", "amr-wind/core/MLMGOptions.H: MLMGOptions"]}
{"id": "C103", "title": "Marker of wakes", "statement": "With the marking of wakes switched on, after every step the passive scalar is one exactly where the actuator force is above the threshold of the input (a tenth by default), elsewhere what transport left; it stays between zero and one; cells next to the mesh of a coupled code are marked too.", "quantifier": "all orders and lists of declared fields, meshes, levels, forces, masks, thresholds and histories of steps", "why_tests_cant": "which marks are left depends on the whole history and on the physics modules in use", "anchors": ["amr-wind/physics/ActuatorSourceTagging.cpp: post_init_actions, post_advance_work", "amr-wind/core/FieldRepo.cpp: field_exists, int_field_exists"]}
{"id": "C104", "title": "Dissipation rate of the hybrid model", "statement": "For a coupled code, the specific dissipation rate in every cell and ghost cell is, at the start and after every step, the root of the subgrid energy over the coefficient of the turbulence model times the cube root of the cell volume; any other turbulence model stops the run.", "quantifier": "all meshes, levels, cell sizes, energies, coefficients, histories of steps and mesh changes", "why_tests_cant": "the value must belong to the energy of the same moment after any history of mesh changes", "anchors": ["amr-wind/physics/HybridRANSLESABL.cpp: compute_sdr_impl, pre_init_actions"]}
{"id": "C105", "title": "Options of prescribed waves and start from the target", "statement": "The wave, the zones, the current, the ramp and the phase are what the documented options say, in the section of the wave or in the common one; contradictory or missing options stop the run; a current with nonlinear waves stops the run; and the run starts, in the zones and wherever waves are asked for, from the state the zones drive to.", "quantifier": "all inputs with non-empty lists, all waves, domains, mesh sizes and cells near the water", "why_tests_cant": "every combination of options in two sections matters, and two separately written pieces of code must agree in every cell", "anchors": ["amr-wind/ocean_waves/relaxation_zones/relaxation_zones_ops.cpp: read_inputs, apply_relaxation_zones", "amr-wind/ocean_waves/relaxation_zones/linear_waves_ops.H: ReadInputsOp, InitDataOp, UpdateRelaxZonesOp", "amr-wind/ocean_waves/relaxation_zones/stokes_waves_ops.H: ReadInputsOp, InitDataOp, UpdateRelaxZonesOp"]}
{"id": "C106", "title": "Lidar with two turning prisms", "statement": "Each beam is the reflection of the axis in two facets turned by their rates, of the set length, turned with the instrument and its hub by the short way between two poses; the beams are one sampling time apart through the whole run, without gaps or repeats at the bounds of the outputs, and keep up with the run; each leaves from where the hub is at its time; the points of a line divide it evenly, are numbered without gaps and fit the buffer.", "quantifier": "all prisms, rates, mounting angles and scans, all histories of outputs with steps of any sizes, all even motions of a hub", "why_tests_cant": "drift of the clock of the scan and the place of the hub show over histories of steps of varying sizes", "anchors": ["amr-wind/utilities/sampling/DTUSpinnerSampler.cpp: generate_lidar_pattern, adjust_lidar_pattern, update_sampling_locations, sampling_locations", "amr-wind/utilities/sampling/SamplingUtils.cpp: reflect, rotate_euler_vec, rotation", "amr-wind/utilities/sampling/Sampling.cpp: Sampling::initialize", "amr-wind/utilities/sampling/SamplingContainer.cpp: populate_buffer"]}
{"id": "C107", "title": "Exchange with a control centre", "statement": "A message from the centre sets the wind and the yaw of each turbine to the values in it, and steers the run from the step in which it arrives; a message that does not fit is refused; the same number means the same compass direction for wind and turbines and in what is told to the centre; the power told is that of momentum theory; and the centre gets for each turbine what its own process computed, whatever the order in which the processes go on, and none waits forever.", "quantifier": "all messages, numbers of turbines, sequences of steps, winds, and all orders of the moves of all processes", "why_tests_cant": "texts of any form, histories of messages and interleavings of processes cannot be enumerated", "anchors": ["amr-wind/helics.cpp: tokenize, HelicsStorage::recv_messages_from_controller", "amr-wind/wind_energy/actuator/Actuator.cpp: communicate_turbine_io", "amr-wind/wind_energy/actuator/disk/uniform_ct_ops.H: UpdatePosOp, ComputeForceOp", "amr-wind/wind_energy/actuator/disk/Joukowsky_ops.H: UpdatePosOp, ComputeForceOp", "amr-wind/wind_energy/ABL.cpp: ABL::pre_advance_work", "amr-wind/incflo_advance.cpp: pre_advance_stage2"]}
{"id": "C108", "title": "What the library that connects overlapping meshes is told", "statement": "The table handed over describes every patch of every level once, with its level, its process, its number on that process, its corners, sizes and place, and the blocks a process hands over are those the table lists for it, in the same order; values handed over and taken back reach the variables and components they came from; a mesh may be rebuilt between updates of the connection; and after an update the mask is 1 in cells to be solved and 0 elsewhere until the next update or rebuild.", "quantifier": "all meshes, levels, divisions among processes, lists of variables, values returned and sequences of calls", "why_tests_cant": "meshes, divisions and histories of calls are unbounded, and the library is outside the tests", "anchors": ["amr-wind/overset/TiogaInterface.cpp: amr_to_tioga_mesh, amr_to_tioga_iblank, pre_overset_conn_work, post_overset_conn_work, register_solution, update_solution, post_regrid_actions", "amr-wind/overset/overset_ops_routines.cpp: iblank_to_mask", "amr-wind/incflo.cpp: regrid_and_update"]}
{"id": "C109", "title": "Prescribed fields at boundaries and at the start", "statement": "A linear, power law, vortex, two-layer or constant field has the documented value in every cell and in every component of every block that is filled; a linear profile has no jump and stays between its ends; the power law has the given speed at the reference height; the vortex turns with the documented speed and is carried by the reference velocity; inputs that do not fit the field are refused and defaults are those of the manual.", "quantifier": "all inputs, positions, times, numbers of components and blocks of components", "why_tests_cant": "positions, times and lists of inputs are unbounded", "anchors": ["amr-wind/physics/udfs/LinearProfile.H, LinearProfile.cpp", "amr-wind/physics/udfs/PowerLawProfile.H, PowerLawProfile.cpp", "amr-wind/physics/udfs/Rankine.H, Rankine.cpp", "amr-wind/physics/udfs/TwoLayer.H, TwoLayer.cpp", "amr-wind/physics/udfs/UDF.cpp: ConstValue, UDFImpl", "docs/sphinx/user/inputs_Boundary_conditions.rst"]}
{"id": "C110", "title": "Perturbation of the temperature in a box", "statement": "Temperature is perturbed once in every given number of steps, and only in cells whose centre lies in the given box at a height counted above the terrain; the amount is random with the given amplitude; cells inside the terrain are never changed; and a run without the mandatory ends of the box does not start.", "quantifier": "all inputs, steps, meshes, cells, terrains and random draws", "why_tests_cant": "steps, places and inputs are unbounded, and a failure shows only at the first perturbed step", "anchors": ["amr-wind/equation_systems/temperature/source_terms/PerturbationForcing.cpp: PerturbationForcing, operator()", "docs/sphinx/user/inputs_Temperature_Sources.rst"]}
{"id": "C111", "title": "Viscous force of the momentum equation with each operator", "statement": "Whichever of the three operators for the velocity is chosen, a step changes the momentum of a cell by convection, force and the viscous force at the old, the mean or the new time, as the treatment of diffusion says, for every density; a steady flow has its force balanced by the viscous force; and options that contradict each other are refused.", "quantifier": "all options, densities, flows, operators, time steps, schemes and treatments of diffusion", "why_tests_cant": "densities and flows are unbounded, and runs with density one cannot show a wrong power of the density", "anchors": ["amr-wind/equation_systems/icns/icns_diffusion.H: ICNSDiffTensorOp, ICNSDiffScalarOp, ICNSDiffScalarSegregatedOp, DiffusionOp<ICNS>", "amr-wind/equation_systems/CompRHSOps.H: predictor_rhs, corrector_rhs, explicit_rk2_post_hoc", "amr-wind/incflo_advance.cpp: ApplyPredictor, ApplyCorrector"]}
{"id": "C112", "title": "Turbine computed by the structural solver Kynema", "statement": "For any number of bodies and nodes, the velocity of the flow at a point reaches the node of that point, and the force, place, velocity, chord and axes of a node reach its point; a step of the flow gives the velocity once, makes all the steps of the solver and takes the motion once, and a step that does not converge ends the run; the masses given to the solver have the energy of the bodies they describe for every motion; tables and counts that do not fit are refused.", "quantifier": "all numbers of bodies and nodes, values of the flow and of the solver, quaternions, numbers of steps, sections, motions and inputs", "why_tests_cant": "numbers of bodies, nodes and steps are unbounded, values and motions are continuous, and the coupling can only be tested with the solver at hand", "anchors": ["amr-wind/wind_energy/actuator/turbine/kynema/kynema_types.H: KynemaTurbine", "amr-wind/wind_energy/actuator/turbine/kynema/KynemaIface.cpp: update_turbine, build_turbine, ext_init_turbine", "amr-wind/wind_energy/actuator/turbine/kynema/turbine_kynema_ops.H: ReadInputsOp"]}
