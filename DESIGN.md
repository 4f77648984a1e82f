# Formal model of amr-wind in Coq 8.16.1 — design

## 1. What this is

`rocq/theories/` contains a hand-written, executable (where the number domain
allows it) Gallina model of selected parts of `/repo/amr-wind`, and theorems about
that model for the properties of `properties.jsonl`.  The code is never run here; the
tie between code and model is the file/line citation carried by every definition.

Layout, per subject `X`:

* `X.v`            model only: definitions, each with a citation of file and lines;
* `XSpec.v`        (where needed) small independent specification vocabulary;
* `XProofs.v`      lemmas;
* `PropX.v`        property theorems only: statement, `exact lemma.`, `Print Assumptions`,
                   and the `Example`s showing that the hypotheses are met by a concrete
                   non-trivial case.

Naming: `cNN_...` proves (part of) property CNN. Suffix `_partial` = only part of the
English property; suffix `_refuted` = the faithful model violates the English property
and the theorem exhibits the witness.

## 2. Number domains

C++ `amrex::Real` (binary64) is modelled by exact numbers:

* `Q` for the executable state machines (time stepping, output schedules, averaging,
  interpolation tables): these stay computable, `vm_compute` examples are run on them, and
  the theorems are axiom-free.  `std::sqrt` in the CFL formula is an explicit function
  argument about which nothing is assumed unless the theorem says so.
* `R` (stdlib Reals) for geometry, PLIC, similarity functions and stencils.  These
  theorems rest on the axioms of the standard library's real numbers
  (`ClassicalDedekindReals.sig_forall_dec`, `sig_not_dec`,
  `FunctionalExtensionality.functional_extensionality_dep`, and, where
  `Rpower`/derivatives need it, `Classical_Prop.classic`).
* `Z` / `nat` for indices and C `int`; `int` overflow is not modelled (the indices
  concerned are step counts and cell indices, which are below 2^31 in any run AMReX
  accepts).  C's truncating `%` is modelled by `Z.rem`.

Rounding is therefore **not** modelled: theorems say what the algorithm computes with exact
arithmetic.  `std::numeric_limits<Real>::epsilon()` appears as a named constant.
NaN/Inf do not exist in the model; division by zero is a distinct outcome or excluded by a
stated hypothesis wherever the code can reach it.

## 3. Outcomes

`amrex::Abort` is a distinct outcome (`Abort`), out-of-bounds access / other undefined
behaviour is a distinct outcome (`UB` / `None`), never a default value.

## 4. Plan per property

| id | model | method |
|----|-------|--------|
| C01 | SimTime record + `new_timestep/set_current_cfl/advance_time`, Evolve as a fold over the list of CFL inputs | invariant by induction over the input list |
| C02 | same | measure on index / time; pigeonhole bound on number of steps |
| C03 | `set_current_cfl` with all limiters in code order | case analysis, per-step theorem lifted to all reachable states |
| C04 | `get_enforced_dt_for_output` with `Qfloor` | floor arithmetic; reachable-state theorem; restart case refuted by witness |
| C05 | `write_plot_file`, `write_last_plot_file`, Evolve event trace | trace induction; final-write-with-delay refuted by witness |
| C06 | header write/read + `set_restart_time`; two runs compared | simulation proof for fixed dt; adaptive case refuted by witness (dt history is not restored) |
| C07 | PostProcessBase schedule + manager hooks in Evolve | trace induction |
| C08 | time-interval predicate | floor arithmetic: constant dt proved, varying dt refuted by witness |
| C09 | FieldRepo state machine (ids, names, per-level data) | invariant over any op list |
| C10 | same | invariant + per-op theorems |
| C11 | state shift | induction over number of advances, refinement to a history list |
| C12 | space flag + scaling | algebra over Q; ncomp>3 out of bounds is UB outcome |
| C13 | same as C09 | per-op frame theorems |
| C14 | bisection / hinted search with fuel, UB on out-of-bounds | loop invariant; fuel shown sufficient |
| C15 | `linear` | algebra on top of C14 |
| C16 | `linear_monotonic` | induction over the query list carrying the hint |
| C17 | `linear_angle` with `fmod` | floor arithmetic |
| C18 | `bilinear` | algebra; out-of-range behaviour refuted by witness |
| C19 | TimeAveraging + ReAveraging + ReynoldsStress | induction over the sample list against the weighted mean |
| C20 | `trapz` | induction |
| C21 | plane averaging as fold over tiles | permutation/partition invariance of sums; refutation of `line_hvelmag_average_cell` |
| C22 | `realbox_to_box` | floor/ceil arithmetic |
| C23 | Box/Cylinder refiner | linear algebra over R |
| C24 | `realbox_to_boxarray` | floor/ceil arithmetic |
| C25 | vs algebra | ring/field, trigonometric identities |
| C26 | VOF sweep machine | invariant |
| C27 | sweep sum | telescoping induction over rows / 3-D sums |
| C28 | flux selection + wall BC | case analysis |
| C29 | sweep direction formula | mod arithmetic |
| C30 | `cut_volume`, `volume_intercept` | case analysis with nonlinear real arithmetic |
| C31 | in-place sequential debris removal in arbitrary order | refuted by witness, plus what does hold for every order |
| C32 | mixture rules, column volume | convexity, telescoping |
| C33 | 27-class stencil dispatch, gradient/divergence/filter | exactness by field, dispatch by case analysis over position |
| C34 | same | same |
| C35 | MOData functions and loop | real analysis; loop bound by fuel lemma |
| C36 | shear-stress models | algebra |
| C37 | wave kernels | real inequalities |
| C38 | channel map | derivative and monotonicity of tanh form |
| C39 | Coriolis | algebra |
| C40 | samplers | list induction |
| C41 | boundary-plane reader | invariant over step sequence |
| C42 | factory as association list | induction over registration history |
| C43 | parameter tables + Evolve model | witness (misspelt key) and the parts that hold |
| C44 | header writer/reader as token lists; replication of boxes | round-trip induction; disjoint cover |
| C45 | IOManager variable layout | fold invariant |
| C46 | overset kernels | pointwise frame theorems |
| C47 | `do_regrid` in Evolve trace | trace induction |
| C48 | sweep counter across a checkpoint | mod arithmetic; refuted in general by witness |
| C49 | reference density and pressure columns | induction over the column |
| C50 | linear and Stokes wave kernels | derivatives over R; boundary conditions and dispersion relation as equations; wave-length iteration as a fuelled loop |
| C51 | nonLinearSum components | trace identities over R; two components refuted |
| C52 | geostrophic, Coriolis, hurricane, body forces | vector algebra over R |
| C53 | Rayleigh, ABL, mast, sponge and free-atmosphere nudging | sign and support theorems by case analysis |
| C54 | Boussinesq, mean Boussinesq, gravity | algebra over R |
| C55 | forest, terrain and immersed drag | sign of the power, fixed points of the log law |
| C56 | terrain flags on whole columns | case analysis over the column index |
| C57 | turbulence-energy source terms | algebra, bounds of the length scales |
| C58 | pseudo-time sharpening loop | telescoping sums, invariants over iterations |
| C59 | inflow plane writers and readers (native and NetCDF layout) | round trip by index arithmetic |
| C60 | masked sums over nested levels | partition of the domain by the mask, induction over levels |
| C61 | field norms | same masks; Cauchy-Schwarz type bounds |
| C62 | extrema and printed locations | fold of max/min; attained values |
| C63 | predictor/corrector right-hand sides, explicit diffusion, upwind fluxes | telescoping sums; convex combination; exact solver as hypothesis |
| C64 | CFL formula with conv/diff/source contributions | algebra of the quadratic; max over levels |
| C65 | reading of boundary types, rules per field, fill of ghost cells | decision procedure as a function; equivalences by case analysis |
| C66 | inflow profiles | real functions, limits and bounds |
| C67 | LES models cell by cell | linear algebra on 3x3 gradients (traces, Cauchy-Schwarz), exp/Rpower bounds, sorted lists |
| C68 | SST and IDDES updates, one-cell budgets | monotonicity of tanh, min/max, one-cell linear solve |
| C69 | k-l model | rational functions on the limited range |
| C70 | `DiskActuator.v`: area computer, averaging loop, point loops, normals from yaw and tilt (disk_ops.cpp, disk_ops.H) | sums by induction on rings and angles; telescoping areas; rotations of `VecSpace` |
| C71 | `DiskActuator.v`: ring forces of the uniform disk, the three spreading kernels | closed form of the sum of hat functions by induction; Gaussian from exp |
| C72 | `DiskActuator.v`: corrections, solid body, the five ring sums, the root of the quadratic, the force loop, integral quantities | the quadratic identity over sums; cosine sums over equal angles; cross products |
| C73 | `DiskActuator.v`: bounding box, tile filter (with `Tagging.realbox_to_box`) | case analysis; closed form of the box for upright disks; explicit counterexamples |
| C74 | `Wing.v`: points, widths, displacement and velocity per step, the positions kept for the source | induction over the time steps with the closed form of the position as invariant |
| C75 | `Wing.v`: blade axes, wind in the section, angle of attack, lift, drag, force, totals, thin airfoil | orthonormal frames and the Lagrange identity; uniqueness of the angle |
| C76 | `Wing.v`: kernel weight, rotation into blade axes, source, bounding boxes (with `DiskActuator.gaussian3d`, `spread_tile`) | rotations keep lengths; interval bounds per motion; bounds on PI |
| C77 | `LiftingLine.v`: geometry and initialisation of the non-uniform points, lift and shed circulation, induced velocity for constant and variable width, relaxation, run over steps | induction over steps; sums with `inner` against an arbitrary direction; termination of the point generation by a bound on the spacing; bounds on exp for the kernel |
| C78 | `ActSampling.v`: influenced ranks over levels, root assignment, position and velocity slices, particles, offsets, buffers and the reduction over ranks, interpolation, wing state per rank under steps and regrids, look-up by label | coarsening of cells level by level; the chosen rank always has the smallest count; disjoint slots in the buffer, one holder per particle, permutations for the arrival order; ring identities for the weights |
| C79 | `Stokes.v`: all coefficients, amplitudes by order, the slope of the wave-number iteration (the sums are `Waves.sw_eta`, `sw_u`, `sw_w`) | surface, velocities and Bernoulli sum as truncated series in the steepness with polynomial coefficients in coth^2 kd and cos, whose low orders vanish by computation (`StokesSeries.check_all`); Taylor bounds of the rest; derivatives with Coquelicot |
| C80 | `MomFlux.v`: stages of the volume-fraction step, face densities, `hybrid_fluxes` and its two callers, the scalar loop; edge states are arguments | each sweep's gain is a face-flux difference plus a dilatation, the three dilatations cancel; clipping bounded per cell as in C27; a uniform value is a multiple of the mass flux on every face; telescoping; two concrete runs for the refutations |
| C81 | `MesoForcing.v`: the whole of ABLMesoscaleForcing and of the two source terms, with table interpolation from `Interp.v` | the explicit cofactor inverse multiplied out by `ring`; the Gram determinant of four distinct heights is not zero because a quadratic form vanishes only on a cubic with four roots; Pythagoras on the misfit; induction over the march through the layer |
| C82 | `Radar.v`: all of LidarSampler and of the geometry, clock and line-of-sight parts of RadarSampler, the quadrature of SamplingUtils, convert_velocity_lineofsight | every rotation rewritten as Rodrigues' formula (C24), so that inner products survive and the axis is followed explicitly; the five rays of a ring add up along the axis because the cosines of a full turn add to zero; case analysis over the four phases of the swing; an invariant of the lag between the two clocks |
| C83 | `FieldTag.v`: thresholds, box, jump, all difference stencils of the five flow criteria and of the overset criterion, the loop over criteria | the stencils are exact on quadratic functions (`field`), so each criterion becomes the formula of `FieldTagSpec.v`; cube root by `Rpower`; maxima turned into disjunctions |
| C84 | `FreeSurface.v`: bounds, pitch, first and last sample of a cell, room per cell, plane and linear heights, limiting, search over cells, levels, processes and instances, array of heights, places of samples | samples of a cell by the characterisation of the ceiling; the search as a greatest element of a set, hence independent of order; layers by induction over the list of heights, with the reconstruction of C30 in mixed cells |
| C85 | `SynthTurb.v`: periodic indices and weights, loading of planes, membership, interpolation, mean profiles, force in a cell, initialisation, update, regrids, and the way of the force into the momentum equation | indices as quotient and remainder of the floor; an invariant over histories: the planes in memory are those of the index remembered, and the force is zero outside the box; interpolation as nested linear interpolation, its Lipschitz bound by walking from integer to integer |
| C86 | `ABLInit.v`: the constructor with all defaults, both ways to read a table, the three kinds of wind, waves, random temperature, energy, velocities from a file and the decision to fill from the coarser level | tables: the value is determined by any piece that contains the height, and both programs find one; the hump s exp((1-s^2)/2) by exp t >= 1+t; the waves of a row telescope to a sine of whole turns; index arithmetic of the slab by uniqueness of quotient and remainder |
| C87 | `ModPower.v`: wind vector, turning per step, height of the cap, size of the step, profile, temperature of a cell | Invariant on the difference between the turned time and the time between start and stop over a list of steps; antiderivatives (power, log-cosh) with Coquelicot for the integral of the profile; scan of the table from C86 |
| C88 | `ExtTurb.v`: sub-steps, the turbine over a list of calls with its velocity file and checkpoints, clean start, replay, restart, duration and density checks, widths, nacelle force, parts, packed exchange, rotor frame, relative velocities; the external solver is any pair of functions | Induction over the list of velocities with a closed form of the whole state; binary64 arithmetic of the standard library by computation for the rounding; arithmetic on the real numbers for frames and forces |
| C89 | `Immersed.v`: shapes, level set, node mask, prescribed and manufactured velocities, normals, a cell and a node through pressure corrections and changes of the mesh | Triangle inequality and explicit nearest points for the distances; induction over the bodies and over the events; Coquelicot for the divergence of the manufactured solution |
| C90 | ExactFlow.v: the closed-form flows of ConvectingTaylorVortex, EkmanSpiral, BurggrafFlow (with the life of its force field), TaylorGreenVortex, ChannelFlow, VortexDipole, VortexPatch, ZalesakDisk, ScalarAdvection, and the norms of the difference over lists of cells | derivatives with Coquelicot against the equations written in ExactFlowSpec.v; integrals by substitution for the Gaussian pulse; induction over lists of cells for the norms; refutations by explicit cases |
| C91 | `StartState.v`: level sets, densities, velocities and pressures at the start of DamBreak, RainDrop, SloshingTank, BreakingWaves, RayleighTaylor, BoussinesqBubble, ZalesakDiskScalarVel and VortexRing | Case analysis on the reals; Coquelicot for derivatives, averages and circulations; the identities of the discrete curl by field arithmetic for every potential |
| C92 | `WallModel.v`: the search of LogLaw, the stresses of the log law, Schumann, constant and wave models, reference height and cell, the velocity one cell size above the wall, the ghost values of both walls | Convexity of the law of the wall for the search; induction over the steps of the loop for an arbitrary step function; case analysis on the reals for the rest; explicit cases for the refutations |
| C93 | `Anelastic.v`: equation of state and its slope, the search for the lowest and the next density, the column, the vector of the nodes, levels, gravity in the reference state | Logarithms for the equation of state; convexity of the pressure for the search (induction over its steps and over the cells); Coquelicot for the slope; explicit cases for the refutations |
| C94 | `Subvol.v`: search for the level, index of the origin, box, cells that exist, re-evaluation over meshes; names and copies into the components of the output | Induction over levels, meshes and fields; rounding on the reals; counterexamples for every list of two or more fields |
| C95 | `WaveBC.v`: boxes of the sides, loops over sides for velocity, volume fraction, density and faces, rule of the faces beyond, updates and fills of a run | Each cell is outside one wave side only, so the loop over sides acts once; induction over the steps of a run |
| C96 | `ABLStats.v`: steps, formats and times of the output, scan of a column with and without a GPU, sum over processes, convective velocity, stresses, residual of the budget, variables defined and written, averages of each process | Permutations of the columns for the sums over processes; induction over a column for the place of its largest value; arithmetic series for the faulty scan; case analysis for the file |
| C97 | `HosWaves.v`: which steps are read and how (evaluate_read_resize), offset at the end of the file, two states of the fields at a point, interpolation in time, runs and restarts, offsets of several processes | The remaining part of the difference telescopes over the updates, giving a closed form by induction over the run; an error bound for skipped steps; modular arithmetic for the end of the file; invariants over the reads for several processes |
| C98 | `Forest.v`: rows of the file, profile, trapezoidal rule, bounding boxes, one box after another, levels, starts, restarts and regrids; not-a-number as `None` | Members of the cylinder lie in the bounding box clipped to the domain, so the clipped loops are a filter of the list of forests; induction over forests, levels and events; monotonicity of ln r + 1 - r for the profile; counting of cell centres for the column |
| C99 | `Transport.v`: keys of the input as strings, fields as partial functions on one box with ghost cells, one fluid and two fluids, expansion coefficient, reference temperature, buoyancy, effective values | Case analysis on the keys; first-of-a-list specification with uniqueness; the smoothed step function of C32 for the level set |
| C100 | `Inputs.v`: a section as a partial map from keys to lists, single values, required and optional lists through two sections, the turbine reader, the box of the turbine, the kind of the actuator | Case analysis on which section holds a key; `InputsSpec.v` states first-of-two-sections with uniqueness |
| C101 | `RotorDisk.v`: the spreading operator of a turbine as a disk, weights, loops over points and blades, tiles | Sums over blades and points; the azimuthal share of C72; geometry of `RotorDiskSpec.v` |
| C102 | `SolverOpts.v`: the options record, the two-section reader, the settings stored in the solver for each user | `c100_scalar` key by key; case analysis on names |
| C103 | `Markers.v`: the two tables of field names as declared in any order, look-up by name, marks per level, grid and cell, histories of steps with an arbitrary transport in between | Induction over the declarations, the levels and the steps; `MarkersSpec.v` |
| C104 | `Markers.v`: cube root of the cell volume, rate per level, histories | Loop over levels changes each level once; sixth powers for uniqueness |
| C105 | `WaveInputs.v`: reading of the options of zones, linear and Stokes waves; start and target of one cell of the plane of x and z | Equivalence of reading with the meaning of `WaveInputsSpec.v`; blend commutes with shifts; cases of zone and beach |
| C106 | `Spinner.v`: pattern of the prisms, clock and loop of beams, hub between two poses, points of lines, place in the buffer | Rotation and reflection algebra; closed form of the loop; induction over the outputs with the lag as invariant |
| C107 | `Centre.v`: taking a message apart, order of use and receipt, directions, power, programs of the processes and their moves | Closed form of the loop over fields; induction over messages; invariants of the moves for all interleavings |
| C108 | `Tioga.v`: table of patches, gather and scatter of variables, calls and the host copies they own | Invariant of the fill over the flattened list of patches; induction over variables and over histories of calls |
| C109 | `Udf.v`: reading and evaluation of the prescribed fields, filling of components | Case analysis over exact reals; induction over components; lists of inputs of any length |
| C110 | `TempPert.v`: reading of the options, step test, box test, amount | Divisibility for the step test; induction over steps for their number; case analysis |
| C111 | `Visc.v`: choice of the operator, its scaling by the density, predictor and corrector of the momentum with `Advance.v` | Algebra over exact reals for an arbitrary operator, every cell |
| C112 | `Kynema.v`: numbering of nodes, arrays exchanged, quaternions to tensors, order of calls, mass matrices, inputs | Induction over bodies, points and steps; algebra over exact reals for every quaternion and motion |

## 5. Trusted base

* Coq's kernel (8.16.1), `coqchk` as an independent re-check (run by the gate).
* What `Print Assumptions` lists under each property theorem: section 8.  Only axioms of
  the standard library occur; nothing in `theories/` is an axiom, a parameter, an admitted
  proof or a module type.  (`coqchk` also names the fields of the sealed modules of the
  standard library's real numbers and of `Coq.ssr.ssrunder`, which are definitions behind a
  signature there; no theorem depends on the latter.)
* The reading of the code: every definition cites its source lines.  Nothing checks this
  mechanically; the seeded edits (`seeded/LOG.jsonl`) check that the theorems notice when a
  definition changes.
* The specifications (`*Spec.v` and the definitions inside the theorem statements).

### 5.1 Modelled

Source files cited by the definitions of each model file (generated).  A file being listed does not
mean that all of it is modelled: the comment at each definition gives the lines.

| model file | source files |
|---|---|
| `ABLInit.v` | ABLFieldInitFile.cpp, ABL.cpp, FieldRepo.cpp, ABLFieldInit.cpp, ABLFieldInit.H, linear_interpolation.H |
| `ABLStats.v` | ABLStats.cpp, FieldPlaneAveraging.cpp |
| `ActSampling.v` | actuator_utils.cpp, actuator_opsI.H, Actuator.cpp, ActuatorContainer.cpp, ActuatorModel.H, Slice.H, ActuatorContainer.H |
| `Advance.v` | CompRHSOps.H, DiffusionOps.H, incflo_diffusion.cpp, incflo_mol_fluxes.cpp, incflo_advance.cpp, incflo_compute_dt.cpp, incflo_enums.H, DiffusionOps.cpp, density_ops.H, volume_fractions.H, SimTime.cpp |
| `Anelastic.v` | ABLAnelastic.cpp, EOSModel.H, MultiLevelVector.cpp, constants.H, ABLAnelastic.H, GravityForcing.cpp |
| `Averaging.v` | ReAveraging.cpp, ReynoldsStress.cpp, constants.H, TimeAveraging.cpp, TimeAveraging.H, ReAveraging.H, ReynoldsStress.H, FieldRepo.cpp, io_utils.H, PostProcessing.cpp, io.cpp |
| `BndryPlane.v` | ABLBoundaryPlane.cpp, ABLFillInflow.cpp, index_operations.H, ABLBoundaryPlane.H |
| `BoundaryCond.v` | BCInterface.H, incflo_enums.H, BCInterface.cpp, vof_bciface.H, incflo_diffusion.cpp, incflo_apply_nodal_projection.cpp, icns_advection.cpp, velocity_bcs.H, scalar_bcs.cpp, Field.H, FieldBCOps.H, FixedGradientBC.cpp, MassInflowOutflowBC.cpp, FieldFillPatchOps.H, LinearProfile.H, PowerLawProfile.cpp, PowerLawProfile.H, BurggrafLid.H, TwoLayer.H, Rankine.H |
| `BoxR.v` | DirectionSelector.H |
| `Centre.v` | helics.cpp, ABL.cpp, ABLModulatedPowerLaw.cpp, Actuator.cpp, uniform_ct_ops.H, Joukowsky_ops.H, incflo_advance.cpp, helics.H, trig_ops.H |
| `Composite.v` | KineticEnergy.cpp, Enstrophy.cpp, WaveEnergy.cpp, FieldNorms.cpp, diagnostics.cpp, constants.H |
| `DiskActuator.v` | disk_ops.cpp, disk_ops.H, uniform_ct_ops.cpp, uniform_ct_ops.H, Joukowsky_ops.cpp, Joukowsky_ops.H, disk_spreading.H, actuator_utils.H, ActuatorDisk.H, Joukowsky.H |
| `ExactFlow.v` | ConvectingTaylorVortex.cpp, EkmanSpiral.cpp, BurggrafFlow.cpp, BurggrafLid.H, ChannelFlow.cpp, TaylorGreenVortex.cpp, VortexDipole.cpp, VortexPatch.cpp, ZalesakDisk.cpp, ScalarAdvection.cpp, FieldRepo.cpp, Field.H, incflo.cpp, BurggrafFlow.H, ChannelFlow.H, VortexPatchScalarVel.cpp |
| `ExtTurb.v` | FastIface.cpp, turbine_fast_ops.H, Actuator.cpp, external_base_types.H, ExtTurbIface.H, turbine_external_utils.H, turbine_external_ops.H, SimTime.cpp |
| `FieldRepo.v` | FieldRepo.cpp, Field.cpp, FieldUtils.H, FieldDescTypes.H, Field.H, FieldRepo.H |
| `FieldTag.v` | GradientMagRefinement.cpp, CurvatureRefinement.cpp, QCriterionRefinement.cpp, VorticityMagRefinement.cpp, OversetRefinement.cpp, RefinementCriteria.cpp, FieldRefinement.cpp, FieldRefinement.H |
| `Forest.v` | ForestDrag.H, constants.H, integrals.H, index_operations.cpp, ForestDrag.cpp, incflo.cpp |
| `FreeSurface.v` | constants.H, SamplerBase.H, FreeSurfaceSampler.cpp, index_operations.H |
| `HosWaves.v` | waves2amr_ops.H, W2AWaves.H, OceanWaves.cpp |
| `Immersed.v` | IB.cpp, IBModel.H, bluff_body_ops.cpp, bluff_body_ops.H, box_ops.H, cylinder_ops.H, sphere_ops.H, incflo.cpp, incflo_apply_nodal_projection.cpp, FieldRepo.cpp, Box.H, Cylinder.H, Sphere.H, BluffBody.H, field_ops.H |
| `Inputs.v` | MultiParser.H, turbine_utils.cpp, Actuator.cpp, turbine_types.H |
| `Interp.v` | linear_interpolation.H, integrals.H, index_operations.H |
| `Kynema.v` | KynemaIface.cpp, kynema_types.H, turbine_kynema_ops.H, ExtTurbIface.H |
| `Levelset.v` | levelset_ops.H, MultiPhase.cpp |
| `LiftingLine.v` | FLLC.cpp, FLLC.H, FLLCOp.H, wing_ops.H, linear_interpolation.H |
| `Markers.v` | ActuatorSourceTagging.cpp, HybridRANSLESABL.cpp, FieldRepo.cpp, FieldRepo.H, ActuatorSourceTagging.H |
| `MeshMap.v` | ChannelFlowMap.cpp, ConstantMap.cpp, ChannelFlowMap.H |
| `MesoForcing.v` | ABLMesoscaleForcing.cpp, ABLMesoForcingMom.cpp, ABLMesoForcingTemp.cpp, ABLMesoscaleForcing.H, ABLMesoscaleInput.cpp |
| `ModPower.v` | ABLFillMPL.cpp, ABLModulatedPowerLaw.cpp, ABLModulatedPowerLaw.H |
| `MomFlux.v` | vof_momentum_flux.H, icns_advection.H, AdvOp_Godunov.H, MultiPhase.cpp, incflo_advance.cpp, vof_advection.H, split_advection.H, incflo_enums.H, volume_fractions.H, CompRHSOps.H, vof_ops.H, PDEBase.cpp, Field.cpp |
| `MoninObukhov.v` | MOData.H, MOData.cpp, ShearStress.H, ABLWallFunction.cpp |
| `MultiPhase.v` | MultiPhase.cpp, hydrostatic_ops.H, TwoPhaseTransport.H, wave_utils_K.H |
| `Overset.v` | overset_ops_K.H, overset_ops_routines.cpp, OversetOps.cpp, volume_fractions.H, MultiPhase.cpp, OversetOps.H |
| `PlaneAvg.v` | FieldPlaneAveraging.cpp, SecondMomentAveraging.cpp, ThirdMomentAveraging.cpp, DirectionSelector.H, FieldPlaneAveragingFine.cpp |
| `Plic.v` | volume_fractions.H |
| `Radar.v` | LidarSampler.cpp, SamplingUtils.cpp, Sampling.cpp, RadarSampler.cpp, RadarSampler.H |
| `Registry.v` | Factory.H, CollMgr.H, DerivedQuantity.cpp, io_utils.H, IOManager.cpp, ActuatorModel.H, actuator_types.H, PDE.H, TurbModelDefs.H, IBModel.H, UDF.H, OceanWavesModel.H |
| `Restart.v` | IOManager.cpp, io.cpp, io_utils.cpp |
| `RotorDisk.v` | ActSrcDiskOp_Turbine.H, turbine_external_utils.H, actuator_types.H, turbine_types.H |
| `Sampling.v` | LineSampler.cpp, PlaneSampler.cpp, VolumeSampler.cpp, ProbeSampler.cpp, Sampling.cpp, constants.H, SamplerBase.H, index_operations.H, SamplingContainer.cpp, SamplingContainer.H |
| `SimTime.v` | SimTime.H, SimTime.cpp, PostProcessing.H, incflo.cpp, PostProcessing.cpp, io.cpp, init.cpp |
| `SolverOpts.v` | MLMGOptions.H, MLMGOptions.cpp |
| `SourceTerms.v` | constants.H, tensor_ops.H, CoriolisForcing.cpp, GeostrophicForcing.cpp, ABLForcing.cpp, ABLForcing.H, HurricaneForcing.cpp, RayleighDamping.cpp, MetMastForcing.cpp, VelocityFreeAtmosphereForcing.cpp, TemperatureFreeAtmosphereForcing.cpp, BoussinesqBuoyancy.cpp, ABLMeanBoussinesq.cpp, DensityBuoyancy.cpp, GravityForcing.cpp, BodyForce.cpp, ForestForcing.cpp, DragForcing.cpp, DragTempForcing.cpp, HurricaneTempForcing.cpp, KsgsM84Src.H, KsgsM84Src.cpp, KwSSTSrc.cpp, KransAxell.cpp, TerrainDrag.cpp |
| `Spinner.v` | DTUSpinnerSampler.cpp, SamplingUtils.cpp, LineSampler.cpp, Sampling.cpp, SamplingContainer.cpp, DTUSpinnerSampler.H |
| `StartState.v` | DamBreak.cpp, RainDrop.cpp, SloshingTank.cpp, BreakingWaves.cpp, ZalesakDiskScalarVel.cpp, RayleighTaylorFieldInit.cpp, BoussinesqBubbleFieldInit.cpp, VortexRing.cpp |
| `Stencil.v` | stencils.H, fvm_utils.H, gradient.H, divergence.H, laplacian.H, DerivedQtyDefs.cpp, strainrate.H, qcriterion.H, nonLinearSum.H, vorticity.H, vorticity_mag.H, filter.H, curvature.H |
| `Stokes.v` | stokes_waves_K.H |
| `Subvol.v` | RectangularSubvolume.cpp, Subvolume.cpp, SubvolumeBase.H |
| `SynthTurb.v` | SynthTurbForcing.cpp, SyntheticTurbulence.cpp, SyntheticTurbulence.H, FieldRepo.cpp, PDEOps.H, CompRHSOps.H |
| `Tagging.v` | index_operations.cpp, BoxRefiner.cpp, CylinderRefiner.cpp, UDFRefiner.cpp, vstraits.H, GeometryRefinement.cpp, GeometryRefinement.H, CartBoxRefinement.cpp |
| `TempPert.v` | PerturbationForcing.cpp, PerturbationForcing.H |
| `Tioga.v` | TiogaInterface.cpp, overset_ops_routines.cpp |
| `Transport.v` | ConstTransport.H, TwoPhaseTransport.H, TransportModel.H, BoussinesqBuoyancy.cpp, TurbModelBase.H |
| `Turbulence.v` | Smagorinsky.cpp, TurbModelBase.H, LaminarModel.cpp, AMDNoTherm.H, AMDNoTherm.cpp, AMD.H, AMD.cpp, Kosovic.cpp, OneEqKsgs.cpp, KLAxell.cpp, tke_ops.H, sdr_ops.H, KOmegaSST.cpp, KOmegaSSTIDDES.cpp, incflo_advance.cpp, KwSSTSrc.cpp, SDRSrc.cpp, turb_utils.cpp |
| `Udf.v` | LinearProfile.H, PowerLawProfile.H, Rankine.H, TwoLayer.H, UDF.cpp, LinearProfile.cpp, PowerLawProfile.cpp, Rankine.cpp, TwoLayer.cpp |
| `VecSpace.v` | trig_ops.H, vector.H, vectorI.H, vstraits.H, tensor.H, tensorI.H |
| `Visc.v` | icns_diffusion.H, CompRHSOps.H, incflo_advance.cpp, DiffusionOps.cpp |
| `VofAdvect.v` | split_advection.H, SplitAdvection.cpp, vof_advection.H, incflo_enums.H |
| `WallModel.v` | LogLaw.H, MOSD.H, ShearStressSimple.H, WallFunction.cpp |
| `WaveBC.v` | OceanWavesBoundary.cpp, index_operations.H, constants.H, OceanWavesFillInflow.cpp, incflo_advance.cpp, PDE.H, incflo_apply_nodal_projection.cpp, incflo.cpp, OceanWaves.cpp, PDEBase.cpp |
| `WaveInputs.v` | relaxation_zones_ops.cpp, linear_waves_ops.H, stokes_waves_ops.H, RelaxationZones.H, stokes_waves_K.H, StokesWaves.H, wave_utils_K.H, relaxation_zones_ops.H |
| `Waves.v` | wave_utils_K.H, relaxation_zones_ops.cpp, linear_waves_ops.H, stokes_waves_K.H |
| `Wing.v` | wing_ops.cpp, wing_ops.H, fixed_wing_ops.H, flat_plate_ops.H, AirfoilTable.cpp, ActSrcLineOp.H, ActuatorWing.H, actuator_types.H, Actuator.cpp |

### 5.2 Not modelled

AMReX itself (MultiFab storage, fill-patch interpolation, communication, parallel loops other
than as arbitrary-order sequential execution, where the theorem says so), AMReX-Hydro (Godunov
extrapolation), the linear solvers (an exact solve where a theorem needs one), HDF5/NetCDF/Ascent
back ends below the index layout, GPU execution, floating-point rounding (except in the few
witnesses that are computed in exact binary64 with SpecFloat), `int` overflow, ParmParse syntax
(parameters arrive as already parsed values), OpenFAST and Kynema turbines, actuator NetCDF output, FFT wave coupling
(Waves2AMR), immersed boundaries, synthetic turbulence, mesoscale forcing tables.

Each definition's comment says what it leaves out; each claim's note in `MANIFEST.json` says what
its theorems leave out.

## 6. Behaviour found while proving

### 6.1 Proved

Places where the model does not do what the property, the documentation or the name of an input
says.  Each is a theorem ending in `_refuted` with a concrete witness or a general statement.  They
are statements about the model; that the code behaves so rests on the reading of the source.

* `c01_delay_window_refuted`: Inside the start-up delay without an initial step the step taken is -1 and time goes backwards.
* `c03_min_dt_spurious_abort_refuted`: A step shortened to meet an output time can fall below min_dt and stop a run although the flow allows ten times min_dt.
* `c04_enforced_after_restart_refuted`: After a restart enforced output can miss the multiples counted from either origin.
* `c05_final_state_written_refuted`: Without the delay hypothesis it is false: with plot_delay beyond the last step and the last step on the interval, no plot file is written at all, although a last step off the interval is.
* `c06_restart_adaptive_refuted`: The step size read from the checkpoint is never used, so an adaptive run loses the growth limit on its first step after a restart.
* `c08_duplicated_refuted`: ... or output twice.
* `c08_skipped_refuted`: Varying steps: the tolerance is a fraction of the current step, so windows of neighbouring steps need not match. A multiple can be missed ...
* `c10_ghost_cells_refuted`: The number of ghost cells is not compared: the second caller gets fewer than it asked for.
* `c10_reserved_name_refuted`: A reserved name is accepted when it is that of an existing old state: the caller gets the old state of another field instead of an abort.
* `c10_zero_states_refuted`: A declaration with no states returns the handle of another field.
* `c12_copied_state_refuted`: Copying a state copies the values but not the flag: the values of the old state, copied while the newest state is in the uniform space, get scaled again (the value 1 becomes 1/4 instead of 1/2).
* `c12_many_components_refuted`: A field with more components than the mapping factor reads past its end.
* `c15_first_node_refuted`: With a first interval not longer than the tolerance the first node is not reproduced: the second value is returned.
* `c18_one_outside_refuted`: One coordinate out of range: the other one is not interpolated, so data that depend on y only are returned wrong by up to a whole table interval.
* `c19_adaptive_start_refuted`: With an adaptive time step the initialisation call happens before any step size is known (delta_t is -1). If averaging starts at time 0, every average is infinite or NaN after it and stays so for the whole run.
* `c19_duplicate_refuted`: A field listed under two labels (or requested twice through add_averaging) is updated twice per sample: the average of 300, 302 with equal durations is not 301.
* `c19_restart_adaptive_refuted`: After the restart of an adaptive run (step size -1 at initialisation) the average leaves the range of the samples.
* `c19_restart_refuted`: After a restart with a fixed step the state in the checkpoint is sampled a second time.
* `c21_hvelmag_cell_refuted`: Refuted: the cell accessor of the horizontal speed does not return the mean horizontal speed, nor what the interpolated accessor returns at the same height; it returns an entry of the velocity average.
* `c21_moment_last_plane_refuted`: Refuted: the cell accessors of the moments abort for the last plane, which the interpolated accessor serves.
* `c21_second_accessor_refuted`: Refuted: the accessor by component pair of the second moments fails for fields of different component counts. For velocity (3) with temperature (1) the pair (v, T) aborts although its moment is stored and written to the file; with (1, 3) components the pair (T, v) is read correctly, but (2, 3) components return the moment of another pair.
* `c21_single_plane_refuted`: Refuted: with a single plane of cells every height query aborts, although the plane mean exists.
* `c22_far_box_refuted`: And a box more than 2^31 cells below the domain is undefined behaviour rather than an empty box.
* `c22_leaves_domain_refuted`: What fails: whenever the physical box reaches the upper end of the domain in x, the index box contains the column of cells just outside the domain.
* `c23_left_handed_refuted`: A box whose axes form a left-handed triple (for instance, two axes listed in the other order) is silently ignored: it tags no cell at all.
* `c23_udf_tiling_refuted`: The user's bounding box does not bound the tagging: with the same box and function, the same cell (3,0,0), three cells away from the box, is tagged or not depending on how the level is cut into tiles.
* `c24_outside_refuted`: A requested box that ends at or beyond the upper end of the domain also requests the cells just outside it, and these are tagged when the tag boxes have ghost cells there; a requested box lying wholly below the domain, by less than a cell, tags the first cells of the domain.
* `c29_fixed_point_refuted`: With three iterations per step every step keeps the same order: the directions never alternate.
* `c30_monotone_refuted`: The guard makes the volume drop when the plane is raised past a corner.
* `c30_offset_exact_refuted`: The guards are visible: an offset that misses the fraction by more than 1e-11, tens of thousands of machine epsilons.
* `c31_decomposition_refuted`: ... and on how the level is cut into boxes.
* `c31_neighbours_refuted`: ... and a cell may be removed although a neighbour was far from empty.
* `c31_order_refuted`: Debris removal depends on the order in which the cells are visited.
* `c33_single_layer_refuted`: With a single cell between opposite walls the gradient of z is 5/6.
* `c34_laplacian_refuted`: The derived quantity "laplacian" of a velocity field is the Laplacian of no component: u = y^2 has Laplacian 2, the operator says 0.
* `c36_aligned_refuted`: The constant and the Moeng model do not: the first ignores the local wind, the second even pushes slow air along.
* `c36_donelan_heat_refuted`: The Donelan model returns the opposite sign: for the same surface heat flux it hands the temperature equation the negative of what the others do.
* `c37_velocity_between_refuted`: But where liquid is added the target velocity is counted twice: the result overshoots it, by as much as the difference itself.
* `c38_physical_refuted`: With another physical length the coordinates and the factors belong to different maps: the domain does not end where asked and the factor is not the derivative.
* `c40_clamp_double_refuted`: In double precision the margin of the clamp is lost in large domains (witness: 5120 length units) and the point belongs to no cell.
* `c40_plane_corner_refuted`: The fourth corner of a plane is not checked: the sampler is accepted and the search for its points aborts.
* `c41_one_record_refuted`: A file with a single record can never be used: the second record is looked for behind the end of the table.
* `c42_register_twice_refuted`: But a second registration under a used keyword silently replaces the first.
* `c43_dry_run_checkpoint_refuted`: The key that should switch checkpoints off is misspelt: a user's checkpoint_interval stays in force and the dry run writes a checkpoint.
* `c43_dry_run_plot_refuted`: A user's plot_delay suppresses the plot file, and a plot_time_interval makes the dry run abort on conflicting plot intervals.
* `c44_below_refuted`: But a ratio that is within that tolerance just below an integer is refused, because the factor is found by truncation...
* `c44_double_refuted`: ... and in double precision this hits exact multiples: a run on [0, 0.1] cannot be continued on [0, 0.3].
* `c44_levels_refuted`: Fewer levels allowed than the checkpoint has: undefined behaviour, no message.
* `c44_moved_refuted`: A domain of the same size elsewhere: the data move with it.
* `c44_ncell_refuted`: Another number of cells without a change of the domain size: the boxes no longer cover the domain.
* `c45_derived_dropped_refuted`: A derived quantity is dropped when a variable of that name was asked for, even if no such variable exists: then neither is written.
* `c45_filter_stale_refuted`: After filtering, the manager's own table of positions is stale: asking for a quantity that was kept reads past the end of the list.
* `c45_names_collide_refuted`: Two different variables can get the same name in the plot file.
* `c45_parse_empty_refuted`: An empty argument list runs into undefined behaviour instead of an error.
* `c46_postsolve_bits_refuted`: Not bit for bit: removing and adding the same pressure gradient changes the velocity of cells that are not masked (density 1, time step 0.5, gradient 1, velocity 0.1).
* `c46_sharpen_clip_refuted`: Volume fractions close to 0 or 1 are changed in all cells, also in those of this solver.
* `c46_velocity_bits_refuted`: Nor does sharpening: multiplying and dividing by the density (water, 0.7 m/s).
* `c48_restart_order_refuted`: C48: the sweep order is not part of the checkpoint (the counter is a member initialised to 0, vof_advection.H:144), so a run restarted after [n] steps sweeps in another order than the uninterrupted run.
* `c50_last_step_refuted`: Meeting the tolerance in the last permitted step is reported as a failure.
* `c51_nonlinear_refuted`: Claimed of all nine components, it fails for (2,2) and (2,3): the flow u = y gives 0 instead of 3 and u = y + z, w = 0 gives an asymmetric tensor.
* `c52_hurricane_default_refuted`: Without an explicit period the two terms use different days.
* `c53_mast_radius_refuted`: Without terrain the user's cut-off is ignored.
* `c53_sponge_sign_refuted`: With a positive distance on the low side (as on the high side) the sponge covers the whole domain and is strongest at the far end.
* `c53_timescale_refuted`: The velocity version does not use the time scale the user gave: any two give the same forcing, unlike for temperature.
* `c54_profile_file_refuted`: A temperature profile file is used only when no file name was given.
* `c55_form_refuted`: The same as an effect on the source term: switching the wave form stress on changes it only in cells above the surface, and there by an amount that gives power to air moving up the slope.
* `c55_moving_wall_refuted`: Waves: the target is taken from the velocity relative to the moving surface but compared with the absolute velocity, so air moving with the surface is slowed down.
* `c55_temperature_inputs_refuted`: The coefficient for heat is read under the name of the one for momentum.
* `c55_viscous_refuted`: The viscous wall stress enters with a sign that accelerates the flow along the wall: the power of its contribution to the source term is never negative, and positive whenever there is a wind.
* `c58_interval_refuted`: A check interval of zero is a division by zero.
* `c58_volume_created_refuted`: The step limits each face, not the sum over the faces of a cell: cutting off the negative value creates volume.
* `c58_zero_tolerance_refuted`: A convergence tolerance of zero switches sharpening off.
* `c59_native_nonperiodic_refuted`: In a direction that is not periodic the other half of the average is the filler value 1e13, so the plane cannot be used as inflow.
* `c59_netcdf_high_refuted`: High planes: the two cells that are averaged both lie outside the domain; a field that grows by one from cell to cell is read one too large.
* `c59_netcdf_shift_refuted`: A level whose boxes at the plane do not reach the corner of its minimal box: every value is read from another row than the one it was written to.
* `c60_wave_level_refuted`: "Still water at the declared water level has no wave energy" therefore holds exactly when the water level is zero.
* `c61_infinity_points_refuted`: The infinity norm of face or nodal data reads the cell mask outside its box.
* `c61_points_refined_refuted`: With refinement the weights of face data do not add up: the mask of the cell above is used for a face between a covered and an uncovered cell.
* `c61_unmasked_refuted`: Without the mask of redundant cells the norm of the constant 1 is not 1 on a refined mesh.
* `c62_location_refuted`: The printed location of the largest velocity takes each coordinate from a different cell and can be a point where the velocity is zero.
* `c63_mapped_refuted`: With mesh mapping the second stage of explicit Godunov diffusion is not divided by the Jacobian: a closed domain loses or gains scalar.
* `c64_documented_refuted`: The number described in the comment above the routine can exceed the one asked for.
* `c64_prescribed_refuted`: Near the interface half the CFL number is enforced for computed velocities, but not for prescribed ones.
* `c64_scalar_refuted`: The explicit-diffusion limit looks at the velocity equation only: a scalar with a larger diffusivity leaves its bounds within the CFL step.
* `c65_inflow_outflow_order_refuted`: Temperature uses the ghost velocity as it finds it: whether the velocity condition ran before changes the temperature in the ghost cell.
* `c65_udf_silent_refuted`: Second: an inflow face with a constant value of its own gets the function of the other inflow face, without a message.
* `c65_udf_used_refuted`: What is missing, first: when both are given the inflow-outflow function replaces the inflow function on the plain inflow faces as well.
* `c65_wall_refuted`: What is missing: a slip wall, a wall model or a symmetry plane on which the input gives a velocity keeps its normal component, and the wall leaks.
* `c65_wave_maker_refuted`: A wave maker next to a profiled inflow: its ghost cells hold its own constant, but the velocity stored on its faces is the profile.
* `c66_rankine_centre_refuted`: A cell centre that meets the centre of the vortex divides zero by zero.
* `c66_two_layer_vertical_refuted`: A vertical velocity given in the input is ignored.
* `c67_amd_heat_laminar_refuted`: The effective diffusivity is documented as laminar plus turbulent. This model leaves the laminar part out: in still air it falls below the molecular value.
* `c67_clip_positive_refuted`: A zero energy stays zero (the equation then divides by it in some models).
* `c67_kosovic_blend_refuted`: Default exponent 2: the weights (1-f)^2 and f^2 do not add up to one, and two equal lengths blend to half of either.
* `c67_kosovic_kappa_refuted`: ... and the constant of von Karman of the input file is not the one in the mixing length.
* `c67_kosovic_wall_refuted`: The distance to the wall is counted from height zero to the top face of the cell, not from the bottom of the domain to its centre.
* `c68_ambient_refuted`: And with ambient values the implicit treatment is not at rest in the ambient state.
* `c68_explicit_predictor_refuted`: So the decay of turbulence is not the same for the three treatments of diffusion: with an explicit predictor it is half of beta* rho k omega.
* `c68_hybrid_elevation_refuted`: The published hybrid raises the RANS length by (1 + fe) with fe a function of the distance to the wall; the code's fe is zero where the published one is positive.
* `c68_omega_decay_refuted`: The decay of omega is not the same for the implicit and the explicit treatment.
* `c70_vertical_sampling_refuted`: The sampling direction is not checked as the normal is: with a vertical sampling direction the disk is accepted and all upstream points are one single point, so the area average is a point sample.
* `c71_gauss_placement_refuted`: Refuted: with Gaussian spreading the force points stay on the disk. A disk of diameter 100 centred 500 off the origin puts half of its force about 1000 from its centre, at a point that is the centre's mirror image.
* `c71_wind_from_behind_refuted`: The direction of the thrust is that of the normal whatever the wind direction: a wind from behind is accelerated.
* `c72_single_ring_refuted`: With a single ring the force points lie on the axis and the forces have no torque, yet a power is reported.
* `c73_box_yawed_refuted`: Refuted: the box holds the neighbourhood of the disk. For every upright disk that faces neither along x nor along y some point within three widths of the plane and two rings of the rim lies outside the box.
* `c73_missing_source_refuted`: Refuted: every cell on the disk receives the source. In this tile no cell does, although cell (111, 150, 128) lies within the radius and 0.3 from the disk plane, where the kernel is positive for every wind and positive thrust.
* `c74_restart_refuted`: Refuted: a run restarted at [t1] continues the motion. The restarted wing starts again from its input position, so it is displaced by what it had travelled before the restart.
* `c75_flat_plate_refuted`: Refuted: the flat plate actuator takes energy out of the flow. Its drag coefficient has the sign of the angle of attack.
* `c75_reversed_flow_refuted`: Refuted: the angle of attack lies in the range of the airfoil table. With the wind from behind along the chord line the angle is [PI] plus the pitch; a table that ends at 180 degrees answers with its last entry whatever the (positive) pitch.
* `c76_sine_refuted`: Refuted: the box of an oscillating wing holds the wing. A negative component of the amplitude shrinks it; a quarter period later every point is outside.
* `c76_small_chord_refuted`: Refuted: the box holds the kernel when the chord is small. The radius of the box is multiplied by the chord even when the width is not; for a chord below a third a place with [exp (-1)] of the peak is outside.
* `c76_span_z_refuted`: Refuted: the spanwise width acts along the span. For a wing along z with [blade_x] along x and no pitch, the spanwise and thickness widths change places, and a two-dimensional wing drops the distance across the section instead of the distance along the span.
* `c76_support_refuted`: Refuted: the box holds the support of the kernel. The kernel reaches four widths, the box three.
* `c77_axes_refuted`: Refuted: a wing without lift is not corrected. The relative velocity is given in the axes of the blade and the force in those of the domain. On a wing along x in a wind along y the whole drag is taken for lift.
* `c77_spacing_refuted`: Refuted: "This will ensure that the spacing will always meet the requirement eps/dr" (FLLC.cpp:78-79). Where the chord has a dip, a point is placed in it after a spacing five times the width there.
* `c78_regrid_moves_wing_refuted`: A moving wing that reaches another rank after a regrid starts there from its initial position, and the ranks spread its force from different places.
* `c78_root_without_boxes_refuted`: What fails: an actuator whose root rank has no box. Two actuators reach rank 0 only, and rank 1 has no boxes. The root of the second is rank 1, where the wind of speed 1 is sampled as zero, so what the root rank reports is wrong.
* `c78_unknown_label_refuted`: What fails: a label no actuator has gives the first actuator.
* `c79_decay_refuted`: So in water deeper than 25 wavelengths the velocity does not decay below the surface: here a wave of length 2 pi in water 100 pi deep, ten units below the still water level.
* `c79_slope_refuted`: From order 4 on the slope is not the derivative: the last term of the derivative of C4 is not multiplied by dSdk. The iteration then approaches the same wave number, but not with Newton's steps.
* `c80_debris_refuted`: With the default VOF.remove_debris a full cell alone in the air is emptied, its momentum stays: from a uniform velocity of 1 and with every face at rest the air of that cell ends at the ratio of the densities, here 1000.
* `c80_inflow_refuted`: So the prescribed velocity itself is carried only if the density prescribed at the boundary does not change during the step. Air before and half water after, next to a cell with an interface: the velocity that enters is 250.75 times the prescribed one.
* `c80_order_refuted`: A scalar registered before the volume fraction (incflo.physics = ABL MultiPhase) is advanced with the face densities of the step before (first step: of no step): a uniform scalar does not stay uniform, not even to a quarter of its value.
* `c81_case_refuted`: The transition to a constant is recognised by case, unlike the other keywords: in lower case the weights are those of the transition and the forcing above it is the cubic.
* `c81_constant_bottom_refuted`: A layer that starts at or below the first height: entry -1 of the profile is read.
* `c81_constant_top_refuted`: A layer that starts above the last height but one: the top entry is not a number.
* `c81_direct_constant_refuted`: Direct assimilation with a transition to a constant reads a height that was never set.
* `c81_momentum_few_refuted`: With fewer than four heights it reads past the end of the weights.
* `c81_momentum_weights_refuted`: With weights that differ, the momentum regression takes the weight at the index of the power instead of that of the height. An error of 1 at every height, which the temperature regression gives back, becomes 0, 5, -5, 5 and 70.
* `c81_tendency_scheme_refuted`: Without a forcing_scheme nothing is applied, the tendencies of the file included.
* `c81_variable_missing_refuted`: A transition height that varies in time is asked for by leaving out constant_transition_height. If the file has none either, a height of zero is taken without a word, and a transition to a constant has no defined result on any grid above the ground.
* `c81_weights_short_refuted`: With fewer values than heights the start-up message reads past the end before the check.
* `c82_beam_end_refuted`: The beam is as long as asked for only in the limit: the last point of a beam stays one spacing short of its length.
* `c82_clock_refuted`: If the outputs are further apart than the beams of the first step last (a larger step later on, or output at every second step only) the radar falls behind without bound.
* `c82_closed_cone_refuted`: A cone without opening gives zero whatever the wind.
* `c82_lidar_offset_refuted`: A periodic table from 10 to 20: at time 15 the beam should be half way, and is at the first entry of the table.
* `c82_lidar_wrap_refuted`: From 350 to 10 degrees the beam goes the long way, through 180.
* `c82_netcdf_refuted`: NetCDF output of samplers goes on exactly if all three components of the velocity are among the sampled variables: also for samplers that have nothing to do with a line of sight.
* `c82_second_beam_refuted`: The second of two beams reports nothing of a wind that blows straight along it: it is projected on the directions of the first beams.
* `c82_single_point_refuted`: A beam of a single point has no direction.
* `c82_vertical_refuted`: With a vertical axis no point is defined.
* `c83_curvature_aspect_refuted`: On cells that are wider than long the second derivatives are those of cells as wide as long: a cylinder of radius 10 is refined for a value of 0.2, although it bends by 0.1.
* `c83_curvature_cap_refuted`: A value above the inverse cell size is replaced by it ...
* `c83_curvature_unlisted_refuted`: ... and so are levels for which no value was given: they are refined wherever the level surfaces bend more than that.
* `c83_jump_refuted`: The jump is not a gradient: for a field that varies linearly it is the largest slope times cell size, so that one value per unit length tags fewer cells on every finer level.
* `c83_q_unity_refuted`: The documentation says that a value of one means rotation as strong as shear. At a value of one the rotation has to be three times as strong; equal strengths are a value of zero.
* `c84_full_refuted`: Water up to the top of the domain: the sample is at the top, which is in no cell, and the listing of the samples stops the program.
* `c84_layout_refuted`: The heights are stored instance after instance and read point after point: with several points and several instances, the second sample at the first point is placed at the first height of the second point.
* `c84_limit_refuted`: More points in a cell than the limit of the input: the points over it are not looked for.
* `c84_regrid_refuted`: The room for points per cell is not computed again after the mesh changes: points of cells that became coarser are lost.
* `c84_reversed_refuted`: A plane whose end is before its start in one of its directions, as in the example of the manual, is accepted, and every height is the bottom of the domain whatever the flow.
* `c84_vertical_refuted`: An interface that stands along the search direction: the sample is put at the middle of the cell even on a line that has no water.
* `c85_decreasing_refuted`: A linear profile that decreases with height is constant.
* `c85_density_refuted`: The density is applied twice: once in the force, once for all source terms of the momentum equation. The change of velocity in a step is proportional to the density.
* `c85_edge_refuted`: A file that holds both ends of the box: up to the upper edge the last two rows are used, on the edge the first row.
* `c85_short_refuted`: A file whose spacings fall short of the length of the box is accepted; a point of the box is looked for in a row behind the last, in the second plane past the end of the memory.
* `c86_above_refuted`: Above the last height the manual promises the last temperature; it is the first.
* `c86_linear_refuted`: On a domain that starts at another height neither is.
* `c86_missing_file_refuted`: A wind profile is asked for and no file given: values of an empty table are read.
* `c86_netcdf_density_refuted`: A NetCDF profile: the density of the input is not read, and a member without a value is used.
* `c86_netcdf_waves_refuted`: A NetCDF profile: waves of 1 m/s are added although the input turns them off.
* `c86_no_boxes_refuted`: Velocities from a file on finer levels: a process without boxes on the level does not join the filling from the coarser level that the others wait in.
* `c87_bulk_refuted`: With a power law the bulk velocity is missed whenever the step is needed at all.
* `c87_low_cap_refuted`: With a cap below the reference speed, the balance counts the full reference speed above the height of the cap, where the inflow is capped.
* `c87_restart_refuted`: A restart forgets the turning so far: the run goes on with the direction of the input.
* `c87_temperature_above_refuted`: Above the table it has the temperature of the ground.
* `c88_blade_velocities_refuted`: The velocities of a blade, for the lifting-line correction, start at the point of the hub: the first blade has the hub's velocity for its root, and every blade lacks that of its tip.
* `c88_duration_refuted`: A run that ends at a step is measured as if all steps had the present size: after a precursor with larger steps any duration of the solver is accepted.
* `c88_old_file_refuted`: A file left by an earlier run is what a later replay reads: the velocities of the run itself do not matter.
* `c88_relative_range_refuted`: With more force points than velocity points the reading runs off the end of the solver's arrays.
* `c88_relative_refuted`: The relative velocities are of the velocities handed over in the step before, not of those just sampled.
* `c88_replay_ahead_refuted`: After the replay the start of the run takes the solver one more flow step, before the first flow step: from there on the solver is one flow step ahead.
* `c88_replay_initial_refuted`: With other velocities at the start than in the first step, the replay's initial solution is not the one of the run: the file does not hold the velocities it was computed with.
* `c88_restart_refuted`: The uninterrupted run and the run restarted from its checkpoint part: the initial solution is computed twice.
* `c88_resumed_file_refuted`: The velocities after a replay are written behind all records of the interrupted run, so that record [k] is no longer that of flow step [k] when that run had gone further than the point of restart.
* `c88_substeps_float_refuted`: In binary64 a flow step of 0.3 with solver steps of 0.1 is refused: the quotient is below three, so two sub-steps are counted.
* `c89_after_solve_refuted`: After the solve the velocity is what the solve makes of it: nothing puts that of the body back.
* `c89_box_planes_refuted`: In the planes of its faces the level set of a box is zero, however far from it.
* `c89_cylinder_height_refuted`: The given height of a cylinder has no effect: points of any height are inside, and any two heights give the same body.
* `c89_last_body_refuted`: With different velocities the last body gives its own to all of them.
* `c89_regrid_nodes_refuted`: After any change of the mesh no node is taken out any more, on any level.
* `c89_regrid_refuted`: When the level of a cell is made anew, its bodies are gone: later solves are handed the cell's own velocity, inside them as well; with a manufactured solution, all cells of the level are handed that of the vortex.
* `c89_short_velocity_refuted`: Fewer than three numbers for the velocity are read past their end.
* `c89_vortex_planes_refuted`: It is also put into cells that are far from a box, in the planes of its faces.
* `c90_channel_floor_refuted`: Heights are not measured from the floor: with a floor elsewhere the profile moves at the floor and, the force not being zero, at no height rests where the wall is.
* `c90_eddy_profile_refuted`: with the whole of it, as the solver has it, stress and force do not balance between any two heights.
* `c90_lid_force_refuted`: once a level was made again, or after a restart, it is whatever the memory held, however many steps follow.
* `c90_narrow_square_refuted`: a narrower pulse is set too high in the cell around it, and there is more of it than was asked for.
* `c90_norm_mapped_refuted`: On a mapped mesh the cells have their mapped volumes and the domain has not: with cells stretched to [s] times their height everywhere, a flow that is off by [e] is reported to be off by the square root of [s] times [e].
* `c90_patch_faces_refuted`: With other cells they are not: in a cell half as high as it is long and wide the fluid is created or lost.
* `c90_spiral_density_refuted`: With another density the forces do not balance: the stress that the solver divides by the density is too small or too large.
* `c90_spiral_floor_refuted`: Heights are measured from zero and not from the floor of the domain: over a floor above zero the air is set in motion at the wall.
* `c90_taylor_green_refuted`: in any other domain they do not: there is divergence at the corner of the coordinates, and the start is not a flow.
* `c90_vortex_density_refuted`: With any other density it is not: the viscosity of the input is divided by the density in the solver and not in the vortex, so the vortex decays at another rate.
* `c90_wall_distance_refuted`: but only in a channel between zero and two.
* `c91_dam_edge_refuted`: In front of the edge of a dam the level set is less than the distance to it: the distance to the edge is the length of the hypotenuse.
* `c91_dam_refuted`: inside it is measured from the origin: a dam that stands at [xc > 0] has air in the part of it from its width on,
* `c91_dam_shift_refuted`: and such points there are for every such dam.
* `c91_fat_circulation_refuted`: the fat ring has less than half of it: the constant in front belongs into the denominator.
* `c91_layers_refuted`: but whatever the domain it is at one half: in a domain above that all of the fluid is on the heavy side.
* `c91_ring_sense_refuted`: For instance a uniform vorticity [om] along x, for which the potential is [- om y^2 / 2], comes out as [- om].
* `c91_rings_phases_refuted`: waves on a ring need as many phases as modes: nothing checks that there are, and with any other number memory is read or written that was not meant.
* `c91_wave_gravity_refuted`: and the frequency is that of a gravity of 9.81, whatever the gravity of the run.
* `c91_wave_level_refuted`: Over any other level the velocities are too large or too small by the exponential of the level: they are measured from the origin, the surface from the level;
* `c92_at_dx_boxes_refuted`: When the two cells are not both in the box the first cell is used: the same flow in boxes cut differently gives different values.
* `c92_at_dx_nearest_refuted`: For cells at least as high as long the cell taken is not always the nearest to the height: from half the height of a cell on it is the second cell, although the first is nearer.
* `c92_centred_channel_refuted`: In a channel around the height zero, taken in its first cell, the law of the wall gives no number at all.
* `c92_constant_direction_refuted`: The constant stress is along x whatever the direction of the body force: a force along y is not held at all.
* `c92_constant_lid_refuted`: The lid drives the fluid on: the stresses of the two walls cancel, and nothing holds the body force.
* `c92_height_refuted`: On any other level, and in any other domain, it is not: the height of level 0 and the coordinate, not the distance from the floor, are used.
* `c92_no_force_refuted`: Without a horizontal body force there is no number.
* `c92_search_number_refuted`: A search that starts from rest, or at a height that is not above the origin of the coordinates, gives no number.
* `c92_search_stops_refuted`: The limit on the steps is meant to stop the run when the search has not settled. It stops the run exactly when the search ends at the twenty-fifth step.
* `c92_search_unsettled_refuted`: A search that has not settled in twenty-five steps does not stop the run: the value of one more step is used.
* `c92_waves_number_refuted`: At crests and troughs, for waves of no height, and for a wind at the speed of the waves, there is no number.
* `c93_default_pressure_refuted`: Without an input the bottom pressure is 100000 Pa, not the 101325 Pa of the documentation.
* `c93_floor_pressure_refuted`: At the nodes of the floor, where the pressure is the one asked for, stands that of half a cell above.
* `c93_levels_refuted`: The run stops unless all the levels the mesh may have exist: a level that appears later cannot be left for later.
* `c93_top_pressure_refuted`: The pressure at the uppermost nodes is zero, whatever the column, although the pressure of the cells below is not.
* `c94_fields_refuted`: With two or more fields of real numbers the first components are those of the last field, under the names of the first.
* `c94_int_over_real_refuted`: The integer fields are written over the real ones.
* `c94_new_mesh_refuted`: A new mesh without the level, or without the cells, of a subvolume stops the whole run.
* `c94_tolerance_refuted`: The tolerance is absolute: on cells smaller than a fifth of a millimetre every origin passes as a node, and of levels finer than a tenth of a millimetre the first is taken for any other.
* `c94_unwritten_refuted`: The components past the longest field of real numbers are never written.
* `c95_advection_refuted`: The velocity carried across the boundary in every step is that of the waves at the end of the step, not half way, though the waves half way were worked out at its beginning.
* `c95_density_refuted`: The condition gives a density of 1 unless the input has one (icns_bcop.H:34-36): with any other gas the density beside the waves is not that of the mixture, nor is it where the condition takes it from liquid inside.
* `c95_ghost_face_refuted`: So with waves that differ from the first cell outside to the second the face beyond a high side is not given the waves of the first, as the face beyond a low side is.
* `c95_iteration_refuted`: In a repeated iteration the old velocity is given the waves of the end of the step.
* `c95_last_face_refuted`: Beside a side, the last of the faces along it is not given the waves unless the domain repeats there.
* `c96_averages_refuted`: With the budget one process goes on to four averages in which no other takes part.
* `c96_budget_refuted`: With the values in the file, where the buoyancy is the dissipation, it closes only if they are equal.
* `c96_buoyancy_refuted`: The buoyancy holds the dissipation.
* `c96_format_refuted`: A format of another name is taken for text at the start and stops the run in the first step that is due.
* `c96_ksgs_refuted`: The energy of the subgrid motion, averaged over the planes by all processes, has a variable that is never written.
* `c96_time_refuted`: The profiles in text files, averages of the state at the end of the step, bear the time of its beginning.
* `c96_zero_refuted`: A frequency of zero, for which no file is made, divides by zero in every step.
* `c96_zi_refuted`: Without a GPU the height of the inversion is half the number of cells along x times the height of a cell, whatever the temperature.
* `c97_init_one_refuted`: From the second step it is off by the difference of the two waves over the rounding unit.
* `c97_init_refuted`: From any later step than the second the target is never between the two: it starts beyond the later wave and goes back to it, and the more so the nearer the first step is.
* `c97_processes_refuted`: Where the file is shorter than its header says and some process does not interpolate, the others read the first step again at every step between the end of the file and that of the header.
* `c97_restart_end_refuted`: A run that is not interrupted takes the steps of the file over and over; restarted after the end of the file it begins again with the first.
* `c98_floor_refuted`: The height of a tree is a coordinate, not a height above the bottom of the domain: with the bottom at minus 20 m a column of a tree of 20 m has twice the leaf area index, with the bottom at 100 m it has none.
* `c98_header_refuted`: A line of words above the rows, or a word in one of them, ends the reading without a message: the forests from there on do not exist.
* `c98_laimax_one_refuted`: The largest density at the top of the tree: the integral is zero and no cell has a number for its drag.
* `c98_top_refuted`: A cell centre exactly at the top of a tree of the second type (a tree of 30 m, cells of 4 m): the ratio of the profile is a division by zero, and the drag of the cell is not a number, where the profile tends to zero.
* `c98_type_refuted`: A type that is neither one nor two is accepted: its cells get the number of the forest, and no drag.
* `c99_ghost_refuted`: The fields of the expansion coefficient have a layer of ghost cells that is never written.
* `c99_unset_refuted`: The turbulence models and the boundary layer do not ask: without a reference temperature their expansion coefficient is minus one and their reference temperature minus one, so that a stable layer counts as an unstable one.
* `c99_zero_refuted`: An expansion coefficient of zero, given to switch buoyancy off, or a negative one (cold water) is taken as not given.

### 6.2 Noticed while reading, no theorem

* The second check of `populate_data` in ABLBoundaryPlane.cpp joins its conditions with `&&`.
* A write frequency of zero for boundary planes is a division by zero.
* The inputs `Cmu_prime` and `prandtl` of KLAxell are read and not used; its turbulent length is 0/0
  at zero energy; OneEqKsgsS94 has an empty update.
* DragForcing hard-codes the constant of von Karman.
* The similarity loop in MOData.cpp runs one iteration more than `max_iters`.

## 7. Seeded edits

`seeded/LOG.jsonl` has one line per attempt: the definition edited in a scratch copy, the edit, the
claim it breaks, the theorems or lemmas at which compilation fails, the
property files that could no longer be built, and the theorems that were added or tightened
because an edit survived.  A line with an empty `theorems_failed` is an edit that survived at the
time; the later line with the same edit shows the tightened theorem failing.

## 8. Assumptions of each theorem

From `Print Assumptions`, run on every theorem of `MANIFEST.json` (generated by a script).
Letters: F = `FunctionalExtensionality.functional_extensionality_dep`,
S = `ClassicalDedekindReals.sig_forall_dec`, N = `ClassicalDedekindReals.sig_not_dec`,
C = `Classical_Prop.classic`; "closed" = closed under the global context.

* **C01** closed: `c01_time_advances_adaptive`, `c01_time_advances_fixed`, `c01_delay_window_refuted`
* **C02** closed: `c02_max_step_bounds_run`, `c02_fixed_dt_terminates`, `c02_adaptive_terminates`
* **C03** closed: `c03_step_limits`, `c03_cfl_number`, `c03_first_step`, `c03_min_dt_spurious_abort_refuted`
* **C04** closed: `c04_enforced_times_hit`, `c04_enforced_after_restart_refuted`
* **C05** closed: `c05_plot_schedule_fresh`, `c05_checkpoint_schedule_fresh`, `c05_plot_schedule_restart`, `c05_checkpoint_schedule_restart`, `c05_final_state_written_partial`, `c05_final_state_written_refuted`
* **C06** closed: `c06_restart_continues_partial`, `c06_restart_adaptive_refuted`
* **C07** closed: `c07_schedules_exclusive`, `c07_post_once_fresh`, `c07_post_once_restart`, `c07_post_step_schedule`
* **C08** closed: `c08_plot_times`, `c08_checkpoint_times`, `c08_plot_once_fixed_dt_partial`, `c08_checkpoint_once_fixed_dt_partial`, `c08_post_once_fixed_dt_partial`, `c08_skipped_refuted`, `c08_duplicated_refuted`
* **C09** closed: `c09_data_on_active_levels`, `c09_every_handle`, `c09_handles_distinct`, `c09_handles_stay`, `c09_write_isolated`, `c09_defined`
* **C10** closed: `c10_fresh`, `c10_redeclare`, `c10_rejects`, `c10_reserved_name_refuted`, `c10_zero_states_refuted`, `c10_ghost_cells_refuted`
* **C11** closed: `c11_advance`, `c11_old_state`, `c11_copy_state`, `c11_older_state`
* **C12** closed: `c12_conversions`, `c12_scalars_abort`, `c12_many_components_refuted`, `c12_copied_state_refuted`
* **C13** closed: `c13_regrid`, `c13_untouched`, `c13_scratch`
* **C14** closed: `c14_bisection_search`, `c14_hinted_search`, `c14_nearest_search`
* **C15** closed: `c15_total`, `c15_exact_on_nodes`, `c15_between`, `c15_affine_exact`, `c15_below`, `c15_above`, `c15_first_node_refuted`
* **C16** closed: `c16_sweep_equals_pointwise`, `c16_needs_order`
* **C17** closed: `c17_shorter_arc`, `c17_nodes`, `c17_period_invariant`
* **C18** closed: `c18_bilinear_exact`, `c18_within_corner_values`, `c18_outside_corner_partial`, `c18_one_outside_refuted`
* **C19** closed: `c19_nothing_outside_period`, `c19_time_average`, `c19_fixed_step_calls`, `c19_common_weights`, `c19_within_samples`, `c19_reynolds_realizable`, `c19_adaptive_start_refuted`, `c19_restart_refuted`, `c19_restart_adaptive_refuted`, `c19_duplicate_refuted`, `c19_request_configured`, `c19_request_new`
* **C20** closed: `c20_sum_of_trapezia`, `c20_affine_exact`, `c20_linear`, `c20_monotone`, `c20_additive`
* **C21** FS: `c21_plane_mean`, `c21_decomposition_independent`, `c21_interpolated_mid`, `c21_interpolated_at_centre`, `c21_interpolated_ends`, `c21_derivative_linear`, `c21_second_moment`, `c21_variance_nonneg`, `c21_third_moment`, `c21_second_accessor_refuted`, `c21_moment_last_plane_refuted`, `c21_single_plane_refuted`; FSN: `c21_hvelmag_mean`, `c21_hvelmag_cell_refuted`; S: `c21_second_accessor_partial`
* **C22** FS: `c22_index_box_partial`, `c22_leaves_domain_refuted`, `c22_far_box_refuted`
* **C23** FSN: `c23_geometry`, `c23_bound_box`, `c23_left_handed_refuted`, `c23_udf_partial`, `c23_udf_tiling_refuted`
* **C24** FS: `c24_static_partial`, `c24_other_levels`, `c24_outside_refuted`
* **C25** FSN: `c25_rotation_proper`, `c25_rotation_axis`, `c25_rotation_sense`, `c25_rotation_compose`, `c25_rotation_inverse`, `c25_quaternion_special`, `c25_dot`, `c25_rotation_cross`, `c25_normalize`, `c25_degrees_radians`; FS: `c25_cross`, `c25_tensor`
* **C26** FSNC: `c26_range`, `c26_range_between`, `c26_face_range`
* **C27** FSNC: `c27_sweep_balance`, `c27_sweep_sealed`, `c27_step_unclipped`, `c27_drift`, `c27_unguarded_exact`
* **C28** FSNC: `c28_upwind`, `c28_walls`, `c28_other_faces`, `c28_full_or_empty`, `c28_departure_slab`; closed: `c28_wall_types`
* **C29** closed: `c29_each_once`, `c29_alternate`, `c29_average_direction`, `c29_fixed_point`, `c29_fixed_point_refuted`; FSNC: `c29_counter`
* **C30** FS: `c30_range`, `c30_empty`, `c30_full`, `c30_exchange_transverse`, `c30_exchange_cell`, `c30_complement`, `c30_mirror`, `c30_scale`, `c30_measure_normal`, `c30_monotone_refuted`, `c30_levelset_range`, `c30_levelset_sides`, `c30_interface_band`; FSNC: `c30_measure`, `c30_measure_unguarded`, `c30_monotone_partial`, `c30_monotone_unguarded`, `c30_offset_reproduces_partial`, `c30_offset_unguarded`, `c30_normal_unit`, `c30_fit_range`, `c30_offset_exact_refuted`, `c30_levelset_plane`, `c30_flat_interface`
* **C31** FS: `c31_no_creation`, `c31_droplets`, `c31_orders_close`, `c31_order_independent`, `c31_order_refuted`, `c31_neighbours_refuted`, `c31_decomposition_refuted`
* **C32** FSNC: `c32_levelset_run`, `c32_levelset_width`, `c32_heaviside`, `c32_heaviside_monotone`, `c32_levelset_mixture`, `c32_beta`; FS: `c32_levelset_corrector`, `c32_mixture`, `c32_mixture_positive`, `c32_mixture_monotone`, `c32_mixture_invertible`, `c32_diffusivities`, `c32_free_surface`, `c32_column_height`, `c32_column_mass`; FSN: `c32_levelset_content`
* **C33** FSNC: `c33_gradient`, `c33_divergence`, `c33_strain_vorticity`; FS: `c33_filter_affine`, `c33_filter_bounds`, `c33_decomposition`, `c33_untouched`, `c33_single_layer_refuted`
* **C34** FSNC: `c34_laplacian`, `c34_laplacian_of_vector`, `c34_curvature`, `c34_curvature_sphere`, `c34_laplacian_refuted`; FS: `c34_laplacian_affine`
* **C35** FSNC: `c35_psi_m`, `c35_psi_h`, `c35_profiles`, `c35_profiles_increase`, `c35_psi_continuous`, `c35_terminates`, `c35_result`, `c35_neutral`, `c35_stable`, `c35_unstable_flux`, `c35_unstable_temperature`
* **C36** FS: `c36_drag`, `c36_ghost`, `c36_surface_temperature`; FSN: `c36_aligned`, `c36_aligned_refuted`, `c36_plane_average`, `c36_average_bound`, `c36_homogeneous`, `c36_local_magnitude`; FSNC: `c36_heat_average`, `c36_heat_fixpoint`, `c36_donelan_heat_refuted`, `c36_mol`
* **C37** FSNC: `c37_gamma_generate`, `c37_gamma_absorb`, `c37_absorb_factor`, `c37_gamma_continuous`, `c37_ramp`, `c37_zone_range`, `c37_between_zones`, `c37_inflow`, `c37_outside`, `c37_profile_regions`, `c37_profile_range`, `c37_profile_continuous`, `c37_profile_sides`; FS: `c37_blend`, `c37_fraction`, `c37_converges`, `c37_fixed`, `c37_density`, `c37_velocity_partial`, `c37_velocity_liquid`, `c37_velocity_between_refuted`
* **C38** FSN: `c38_identity`; FSNC: `c38_ends`, `c38_symmetric`, `c38_derivative`, `c38_factor_positive`, `c38_increasing`, `c38_range`, `c38_clustering`, `c38_arrays`, `c38_determinant`, `c38_coordinates`, `c38_order`, `c38_physical_refuted`; FS: `c38_constant`
* **C39** FSN: `c39_no_work`, `c39_linear`, `c39_rotation`, `c39_horizontal`, `c39_hemisphere`
* **C40** FS: `c40_contains`, `c40_locations`, `c40_clamp`, `c40_line`, `c40_volume`, `c40_probe`, `c40_plane`, `c40_plane_points`, `c40_plane_unchanged`, `c40_plane_aligned`, `c40_plane_accepted`, `c40_plane_corner_refuted`, `c40_particles`, `c40_buffer`, `c40_affine`, `c40_bounds`, `c40_nodal`, `c40_reads`; closed: `c40_uids`, `c40_output`, `c40_clamp_double_refuted`
* **C41** closed: `c41_bracket`, `c41_exact`, `c41_linear`, `c41_refused`, `c41_edges`, `c41_one_record_refuted`, `c41_fill`, `c41_fill_faces`, `c41_run`
* **C42** closed: `c42_create`, `c42_distinct`, `c42_shipped`, `c42_register_twice_refuted`, `c42_collection`, `c42_collection_dup`
* **C43** closed: `c43_dry_run_no_step`, `c43_dry_run_files_partial`, `c43_dry_run_checkpoint_refuted`, `c43_dry_run_plot_refuted`
* **C44** closed: `c44_header`, `c44_header_all`, `c44_replicate`, `c44_restart`, `c44_noninteger`, `c44_below_refuted`, `c44_double_refuted`, `c44_fields`, `c44_fields_nodal`, `c44_ncell_refuted`, `c44_moved_refuted`, `c44_levels_refuted`
* **C45** closed: `c45_derived`, `c45_filter_stale_refuted`, `c45_parse`, `c45_parse_empty_refuted`, `c45_derived_vars`, `c45_selected`, `c45_idempotent`, `c45_layout`, `c45_consecutive`, `c45_names_distinct`, `c45_names_collide_refuted`, `c45_derived_dropped_refuted`
* **C46** closed: `c46_mask`, `c46_harmonize`, `c46_postsolve_bits_refuted`, `c46_velocity_bits_refuted`; FS: `c46_mask_mac`, `c46_mask_nodal`, `c46_mask_mac_frame`, `c46_mask_restored`, `c46_postsolve`; FSN: `c46_sharpen_frame`, `c46_sharpen_pressure`, `c46_sharpen_clip_refuted`
* **C47** closed: `c47_regrid_schedule`
* **C48** closed: `c48_restart_order_refuted`, `c48_restart_order_partial`
* **C49** FS: `c49_reference_density`, `c49_hydrostatic_balance`, `c49_pressure_top`
* **C50** FSNC: `c50_dispersion`, `c50_linear_flow`, `c50_linear_surface`, `c50_linear_profile`, `c50_stokes_flow`, `c50_wavelength_consistent`; FSN: `c50_linear_target`, `c50_stokes_height`, `c50_stokes_travel`, `c50_wavelength_partial`, `c50_last_step_refuted`
* **C51** FSNC: `c51_nonlinear_partial`, `c51_nonlinear_refuted`
* **C52** FSN: `c52_geostrophic`, `c52_geostrophic_full`, `c52_table`, `c52_hurricane`, `c52_hurricane_default_refuted`
* **C53** FSN: `c53_rayleigh_range`, `c53_rayleigh_monotone`, `c53_rayleigh_no_jump`, `c53_ramp`, `c53_ramp_monotone`, `c53_mast_centre`, `c53_mast_radius_refuted`; FS: `c53_rayleigh_damps`, `c53_abl`, `c53_free`, `c53_timescale_refuted`, `c53_sponge_high`, `c53_sponge_low`, `c53_sponge_sign_refuted`; FSNC: `c53_mast`
* **C54** FS: `c54_boussinesq`, `c54_mean`, `c54_density`, `c54_gravity`; closed: `c54_profile_file_refuted`; FSN: `c54_body`
* **C55** FSN: `c55_forest`, `c55_bc`, `c55_viscous_refuted`, `c55_form`; FSNC: `c55_blanked`, `c55_free_air`, `c55_log_law`, `c55_form_refuted`, `c55_moving_wall_refuted`, `c55_temperature`, `c55_temperature_surface`; FS: `c55_temperature_inputs_refuted`
* **C56** FS: `c56_blank`, `c56_column`, `c56_drag_exists`, `c56_waves`
* **C57** FSN: `c57_m84`, `c57_m84_wall`, `c57_axell`; FS: `c57_kwsst`, `c57_axell_terrain`
* **C58** FSN: `c58_closed_interior`, `c58_closed_periodic`, `c58_volume`, `c58_conserved`, `c58_bounded`, `c58_at_rest`, `c58_pseudo_step`, `c58_iterations`, `c58_stopping`, `c58_pressure`, `c58_zero_tolerance_refuted`, `c58_interval_refuted`, `c58_volume_created_refuted`
* **C59** closed: `c59_native`, `c59_native_average`, `c59_native_nonperiodic_refuted`, `c59_netcdf_low`, `c59_netcdf_high_refuted`, `c59_netcdf_shift_refuted`, `c59_cells`, `c59_faces`
* **C60** FS: `c60_integral`, `c60_constant`, `c60_boxes`, `c60_kinetic_energy`, `c60_uniform_flow`, `c60_enstrophy`, `c60_refinement`, `c60_liquid_height`, `c60_wave_kinetic`, `c60_wave_potential`, `c60_wave_still`, `c60_wave_level_refuted`
* **C61** FSN: `c61_magnitude`, `c61_mean`, `c61_constant`, `c61_infinity`, `c61_order`, `c61_unmasked_refuted`, `c61_points_constant`, `c61_points_refined_refuted`, `c61_infinity_points_refuted`; FS: `c61_points_mask`
* **C62** FS: `c62_masked`, `c62_velocity`, `c62_location`, `c62_printed`, `c62_location_refuted`
* **C63** FS: `c63_theta`, `c63_corrector`, `c63_budget`, `c63_budget_corrector`, `c63_conserved`, `c63_conserved_corrector`, `c63_mass`, `c63_flux_scales`, `c63_uniform`, `c63_uniform_corrector`, `c63_implicit_bounds`, `c63_face_viscosity`, `c63_energy`, `c63_masked`, `c63_mapped_refuted`; FSN: `c63_explicit_bounds`
* **C64** FSN: `c64_courant`, `c64_interface`, `c64_diffusion`, `c64_scalar_refuted`, `c64_attained`, `c64_prescribed`, `c64_prescribed_refuted`, `c64_documented_refuted`; FS: `c64_masked`
* **C65** closed: `c65_types`, `c65_types_stop`, `c65_pressure`, `c65_fill`, `c65_fill_other`, `c65_fill_boundary_face`, `c65_udf`, `c65_udf_used_partial`, `c65_udf_names`, `c65_udf_used_refuted`, `c65_gradient`, `c65_set_inflow`, `c65_udf_conflict`; S: `c65_velocity`, `c65_scalar`, `c65_vof`, `c65_extrapolated`, `c65_accept_velocity`, `c65_accept_vof`, `c65_velocity_values`, `c65_pressure_values`, `c65_wall_partial`, `c65_wall_refuted`, `c65_udf_silent_refuted`, `c65_accept_scalar`, `c65_scalar_values`, `c65_vof_values`; FS: `c65_inflow_outflow`, `c65_inflow_outflow_twice`, `c65_inflow_outflow_order_refuted`, `c65_face_inflow`, `c65_wave_maker_refuted`
* **C66** FS: `c66_linear`, `c66_linear_range`, `c66_burggraf`, `c66_two_layer`, `c66_two_layer_vertical_refuted`, `c66_rankine_bound`; FSNC: `c66_power_law`, `c66_power_reference`, `c66_power_monotone`; FSN: `c66_rankine`, `c66_rankine_travels`, `c66_rankine_centre_refuted`
* **C67** FSNC: `c67_smagorinsky`, `c67_smagorinsky_sign`, `c67_smagorinsky_mesh`, `c67_smagorinsky_frame`, `c67_kosovic_base`, `c67_kosovic_blend_partial`, `c67_kosovic_blend_refuted`, `c67_kosovic_surface`, `c67_kosovic_terrain`, `c67_kosovic_sign`, `c67_kosovic_stress`, `c67_kosovic_kappa_refuted`, `c67_oneeq_length`, `c67_oneeq_viscosity`, `c67_oneeq_budget`, `c67_oneeq_hybrid`; FS: `c67_amd_formula`, `c67_amd_off`, `c67_amd_renumbered`, `c67_amd_frame`, `c67_amd_neutral`, `c67_amd_buoyancy`, `c67_amd_heat_formula`, `c67_amd_heat_laminar_refuted`, `c67_kosovic_wall_partial`, `c67_kosovic_wall_refuted`, `c67_kosovic_heat`, `c67_stratification`, `c67_effective`, `c67_clip`, `c67_clip_positive_refuted`; FSN: `c67_amd_bound`, `c67_amd_heat`, `c67_kosovic_constants`; closed: `c67_source_terms`, `c67_source_terms_again`
* **C68** FSNC: `c68_blending`, `c68_viscosity`, `c68_wall`, `c68_production`, `c68_implicit`, `c68_explicit`, `c68_explicit_predictor_refuted`, `c68_ambient_refuted`, `c68_omega_decay_partial`, `c68_omega_decay_refuted`, `c68_hybrid_blend`, `c68_hybrid_near_wall`, `c68_hybrid_budget`, `c68_hybrid_elevation_refuted`; FSN: `c68_formulas`, `c68_predictor_partial`, `c68_hybrid_lengths`
* **C69** FS: `c69_limited`, `c69_limited_order`, `c69_functions`, `c69_prandtl_consistent`, `c69_wall_length`, `c69_height`; FSN: `c69_length`, `c69_formulas`, `c69_viscosity`, `c69_heat`, `c69_memory`
* **C70** FSN: `c70_areas`, `c70_averages`, `c70_uniform_flow`, `c70_points`, `c70_vertical_sampling_refuted`, `c70_bearing`, `c70_default_sampling`; FS: `c70_points_in_ring`
* **C71** FSN: `c71_thrust`, `c71_takes_energy`, `c71_wind_from_behind_refuted`, `c71_gauss_points_partial`, `c71_gauss_placement_refuted`, `c71_gauss_source`; FSNC: `c71_spread`, `c71_gaussian`; FS: `c71_profile`
* **C72** FSNC: `c72_azimuthal_weight`, `c72_thrust`, `c72_solvable_plain`, `c72_blade_element`, `c72_power`, `c72_single_ring_refuted`, `c72_corrections`, `c72_side_force`; FS: `c72_solid_body`
* **C73** FS: `c73_tiles`; FSN: `c73_box_aligned`, `c73_box_yawed_refuted`; FSNC: `c73_aligned_error`, `c73_missing_source_refuted`
* **C74** FSN: `c74_points`, `c74_position`, `c74_velocity`, `c74_restart_refuted`
* **C75** FSN: `c75_frame`; FSNC: `c75_force`, `c75_energy`, `c75_flat_plate_refuted`, `c75_reversed_flow_refuted`, `c75_relative`, `c75_flags`, `c75_totals`
* **C76** FSNC: `c76_kernel`, `c76_axes`, `c76_missed`, `c76_tiles`, `c76_small_chord_refuted`, `c76_support_refuted`, `c76_plane`, `c76_inputs`; FSN: `c76_isotropic`, `c76_span_z_refuted`, `c76_box`, `c76_sine_refuted`, `c76_box_2d`, `c76_box_plate`
* **C77** FSN: `c77_points`, `c77_widths`, `c77_spacing_refuted`, `c77_lift`, `c77_induced_const`, `c77_induced_var`, `c77_target_const`, `c77_target_var`, `c77_target_nonuniform`, `c77_relaxation`, `c77_equal_widths`, `c77_start`, `c77_no_spanwise`; FSNC: `c77_axes_refuted`, `c77_kernel`; FS: `c77_shed`
* **C78** FS: `c78_influenced`, `c78_level_geom`, `c78_interp`, `c78_interp_bounds`, `c78_velocities`, `c78_no_boxes`, `c78_root_without_boxes_refuted`; closed: `c78_root`, `c78_balance`, `c78_local_root`, `c78_regrid`, `c78_label`, `c78_unknown_label_refuted`; FSN: `c78_wing`, `c78_wing_at_rest`, `c78_regrid_moves_wing_refuted`
* **C79** FSN: `c79_order`, `c79_clamped`; FSNC: `c79_potential`, `c79_free_surface`, `c79_mean`, `c79_slope`, `c79_slope_refuted`, `c79_decay`, `c79_decay_refuted`
* **C80** FSNC: `c80_mass`, `c80_mass_exact`, `c80_uniform_step`, `c80_uniform_exact`, `c80_scalar_after_vof`, `c80_scalar_before_vof`, `c80_single_phase`, `c80_momentum`, `c80_debris`, `c80_debris_refuted`, `c80_order_refuted`; FS: `c80_uniform_flux`, `c80_donor`, `c80_traced`, `c80_accelerated_flux`, `c80_inflow`, `c80_inflow_refuted`
* **C81** closed: `c81_inverse`, `c81_least_squares`, `c81_cubic_exact`, `c81_momentum_uniform`, `c81_momentum_weights_refuted`, `c81_momentum_few_refuted`, `c81_direct`, `c81_blend`, `c81_plain`, `c81_variable`, `c81_weights`, `c81_weights_short_refuted`, `c81_thickness`, `c81_surface_flux`, `c81_constant`, `c81_constant_forcing`, `c81_constant_bottom_refuted`, `c81_constant_top_refuted`, `c81_direct_constant_refuted`, `c81_case_refuted`, `c81_variable_missing_refuted`, `c81_tendency`, `c81_tendency_scheme_refuted`, `c81_keywords`
* **C82** FSN: `c82_lidar`, `c82_lidar_periodic`, `c82_lidar_offset_refuted`, `c82_lidar_wrap_refuted`, `c82_lidar_sizes`, `c82_average`, `c82_closed_cone_refuted`; FS: `c82_sweep`, `c82_sweep_rate`, `c82_elevation`, `c82_los`, `c82_beams`, `c82_clock`, `c82_beam_times`, `c82_clock_refuted`; FSNC: `c82_elevation_empty`, `c82_beam`, `c82_cone`, `c82_beam_end_refuted`, `c82_vertical_refuted`, `c82_single_point_refuted`, `c82_uniform`, `c82_second_beam_refuted`; closed: `c82_netcdf_refuted`
* **C83** FS: `c83_field`, `c83_jump_refuted`, `c83_q`, `c83_q_unity_refuted`, `c83_q_scale`; closed: `c83_field_input`, `c83_values_input`, `c83_overset`, `c83_union`; FSN: `c83_gradient`, `c83_unlisted`, `c83_vorticity`; FSNC: `c83_curvature`, `c83_curvature_cap_refuted`, `c83_curvature_unlisted_refuted`, `c83_curvature_aspect_refuted`
* **C84** FS: `c84_input`, `c84_points`, `c84_capacity`, `c84_plane`, `c84_linear`, `c84_layout_partial`, `c84_layout_refuted`, `c84_full_refuted`; closed: `c84_number`; FSNC: `c84_search`, `c84_order`, `c84_descends`, `c84_layers`, `c84_cell`, `c84_reversed_refuted`, `c84_limit_refuted`, `c84_regrid_refuted`, `c84_vertical_refuted`
* **C85** FSNC: `c85_force`, `c85_size`, `c85_linear_profile`, `c85_power_profile`, `c85_constant_profile`, `c85_density_refuted`, `c85_decreasing_refuted`; FSN: `c85_frame`, `c85_period`; FS: `c85_reads`, `c85_nodes`, `c85_range`, `c85_no_jump`, `c85_short_refuted`, `c85_edge_refuted`
* **C86** FSN: `c86_input_file`, `c86_profile_file`, `c86_netcdf_partial`, `c86_waves_mean`, `c86_linear_partial`, `c86_linear_refuted`, `c86_energy`, `c86_energy_file`, `c86_above_refuted`, `c86_netcdf_density_refuted`, `c86_missing_file_refuted`; FSNC: `c86_waves_size`, `c86_netcdf_waves_refuted`; closed: `c86_file`, `c86_no_boxes_refuted`
* **C87** FSN: `c87_wind`; FS: `c87_turning`, `c87_restart_refuted`, `c87_temperature`, `c87_temperature_above_refuted`; FSNC: `c87_profile`, `c87_reference`, `c87_bulk_partial`, `c87_bulk_refuted`, `c87_bulk_uniform`, `c87_low_cap_refuted`
* **C88** FS: `c88_substeps`, `c88_clocks`, `c88_replay`, `c88_replay_initial_refuted`, `c88_replay_ahead_refuted`, `c88_old_file_refuted`, `c88_resumed_file_refuted`, `c88_duration`, `c88_duration_both`, `c88_duration_refuted`, `c88_density`, `c88_blade_width`, `c88_tower_width`, `c88_exchange`; closed: `c88_substeps_float_refuted`, `c88_restart_checkpoints`, `c88_parts`, `c88_blade_velocities_refuted`; S: `c88_run`, `c88_checkpoints`, `c88_restart_partial`, `c88_restart_refuted`, `c88_relative_refuted`, `c88_relative_range_refuted`; FSN: `c88_nacelle`, `c88_rotor_frame`
* **C89** FSN: `c89_sphere`, `c89_cylinder`, `c89_cylinder_height_refuted`, `c89_box`, `c89_box_outside_partial`, `c89_box_planes_refuted`, `c89_union`, `c89_nodes`, `c89_velocity_partial`, `c89_last_body_refuted`, `c89_short_velocity_refuted`, `c89_normal`, `c89_handed`, `c89_after_solve_refuted`, `c89_regrid_nodes_refuted`; FSNC: `c89_vortex`, `c89_vortex_planes_refuted`, `c89_regrid_refuted`
* **C90** FSNC: `c90_vortex`, `c90_vortex_density_refuted`, `c90_spiral`, `c90_spiral_floor_refuted`, `c90_spiral_density_refuted`, `c90_lid`, `c90_taylor_green`, `c90_taylor_green_refuted`, `c90_dipole`, `c90_channel_waves`, `c90_channel_law`, `c90_channel`, `c90_eddy_profile_partial`, `c90_eddy_profile_refuted`, `c90_patch`, `c90_disk_turns`, `c90_start_density`, `c90_gauss`, `c90_gauss2`, `c90_packet_partial`; FS: `c90_lid_force`, `c90_lid_force_refuted`, `c90_wall_distance`, `c90_wall_distance_refuted`, `c90_channel_floor_refuted`, `c90_square`, `c90_narrow_square_refuted`, `c90_packet_weights`, `c90_advected`; FSN: `c90_taylor_green_repeats`, `c90_channel_waves_fit`, `c90_patch_faces`, `c90_patch_faces_refuted`, `c90_patch_returns`, `c90_disk_shape`, `c90_norm_counted`, `c90_norm_domain_partial`, `c90_norm_mapped_refuted`, `c90_norm_levels`
* **C91** FS: `c91_dam_partial`, `c91_dam_outside`, `c91_dam_refuted`, `c91_dam_shift_refuted`, `c91_drop`, `c91_tank_pressure`, `c91_ring_divergence`, `c91_ring_rotation`, `c91_ring_sense_refuted`; FSN: `c91_dam_edge_refuted`, `c91_wave_gravity_refuted`, `c91_layers_interface`, `c91_bubble`, `c91_scalar`, `c91_ring_azimuth`, `c91_fat_core`, `c91_rings_mirror`, `c91_rings_phases_refuted`, `c91_rings_waves`; FSNC: `c91_density`, `c91_drop_share`, `c91_tank_surface`, `c91_tank_balance`, `c91_wave_surface`, `c91_wave_flow`, `c91_wave_speed_partial`, `c91_wave_level_refuted`, `c91_layers`, `c91_layers_refuted`, `c91_rings_circulation`, `c91_fat_circulation_refuted`
* **C92** FSNC: `c92_friction_unique`, `c92_step_fixed`, `c92_search_descends`, `c92_search_settled`, `c92_search_number_refuted`, `c92_centred_channel_refuted`, `c92_no_force_refuted`; FS: `c92_search`, `c92_search_stops_refuted`, `c92_search_unsettled_refuted`, `c92_height`, `c92_height_refuted`, `c92_stress_schumann`, `c92_walls_hold_back`, `c92_constant_floor`, `c92_constant_lid_refuted`, `c92_at_dx`, `c92_at_dx_between`, `c92_at_dx_nearest_refuted`, `c92_at_dx_boxes_refuted`; FSN: `c92_balance`, `c92_stress_loglaw`, `c92_constant_direction_refuted`, `c92_waves`, `c92_waves_number_refuted`
* **C93** FSNC: `c93_air`, `c93_slope`, `c93_settled_balance`, `c93_settled_floor`, `c93_one_density`, `c93_one_floor_density`, `c93_column_floor`, `c93_column`, `c93_top_pressure_refuted`, `c93_floor_pressure_refuted`, `c93_node_pressure`; FS: `c93_search`, `c93_search_stops`, `c93_search_keeps`, `c93_default_pressure_refuted`, `c93_rest`; closed: `c93_levels_refuted`
* **C94** FS: `c94_level`, `c94_no_level`, `c94_box`, `c94_made`, `c94_tolerance_refuted`, `c94_new_mesh_refuted`, `c94_meshes`; closed: `c94_one_field`, `c94_no_real_fields`, `c94_fields_refuted`, `c94_unwritten_refuted`, `c94_int_over_real_refuted`
* **C95** closed: `c95_sides`, `c95_vof`; FS: `c95_velocity`, `c95_density`, `c95_density_refuted`, `c95_elsewhere`, `c95_inside`, `c95_planes`, `c95_face`, `c95_other_faces`, `c95_ghost_face`, `c95_ghost_face_refuted`, `c95_last_face_refuted`, `c95_times`, `c95_advection_refuted`, `c95_iteration_refuted`, `c95_sibling`
* **C96** closed: `c96_when`, `c96_never`, `c96_zero_refuted`, `c96_format_refuted`, `c96_file`, `c96_buoyancy_refuted`, `c96_ksgs_refuted`, `c96_averages`, `c96_averages_refuted`; FS: `c96_time_refuted`, `c96_zi_refuted`, `c96_zi_gpu`, `c96_zi_differ`, `c96_heat`, `c96_budget`, `c96_budget_refuted`; FSNC: `c96_wstar`; S: `c96_stress`
* **C97** FS: `c97_target`, `c97_between`, `c97_init_refuted`, `c97_init_one_refuted`, `c97_any_step`, `c97_restart`, `c97_restart_end_refuted`; closed: `c97_processes`, `c97_processes_refuted`
* **C98** closed: `c98_file`; FS: `c98_header_refuted`; FSNC: `c98_density`, `c98_cells`, `c98_column`, `c98_top_refuted`, `c98_laimax_one_refuted`, `c98_floor_refuted`, `c98_type_refuted`
* **C99** S: `c99_keys`; FSN: `c99_one_fluid`, `c99_effective`, `c99_unset`, `c99_unset_refuted`, `c99_ghost_refuted`; FSNC: `c99_two_fluids`, `c99_buoyancy`, `c99_buoyancy_field`, `c99_zero_refuted`
* **C100** closed: `c100_scalar`, `c100_vector_get`, `c100_vector_query_partial`, `c100_mixed_refuted`; FS: `c100_turbine_partial`, `c100_box`, `c100_fllc_disk`, `c100_fllc_disk_refuted`
* **C101** FSNC: `c101_source`, `c101_tower_refuted`, `c101_weight`, `c101_unit_spacing`, `c101_gap_refuted`, `c101_spill_refuted`, `c101_tiles`, `c101_tiles_refuted`; S: `c101_one_point_refuted`
* **C102** FS: `c102_options`, `c102_defaults_refuted`; closed: `c102_settings`, `c102_bottom`, `c102_name_refuted`, `c102_bottom_maxiter_refuted`, `c102_nodal`
* **C103** FSN: `c103_mark`, `c103_mask`, `c103_range`, `c103_kept`, `c103_fringe_refuted`; FS: `c103_ghost`
* **C104** FSNC: `c104_rate`, `c104_frame`; closed: `c104_model`
* **C105** FSN: `c105_linear`, `c105_stokes_partial`, `c105_current_refuted`, `c105_iterations_refuted`, `c105_start_linear`, `c105_start_stokes`, `c105_stokes_beach_refuted`, `c105_ghost_refuted`, `c105_height`
* **C106** FSN: `c106_direction`, `c106_short_way`, `c106_scan`, `c106_length`, `c106_pointing`, `c106_clock`, `c106_interval_refuted`, `c106_hub_start_refuted`, `c106_hub_refuted`, `c106_adaptive_refuted`; FS: `c106_points`, `c106_buffer_refuted`
* **C107** closed: `c107_message`, `c107_extra_refuted`, `c107_accepted`, `c107_collected`, `c107_no_deadlock`, `c107_self_send_refuted`, `c107_waiting_sends`; FS: `c107_delay_refuted`; FSN: `c107_compass`, `c107_power`; FSNC: `c107_told`, `c107_told_refuted`
* **C108** S: `c108_patches`; closed: `c108_solution`, `c108_regrid_refuted`, `c108_mask`, `c108_take_back`
* **C109** closed: `c109_components`, `c109_linear_taken`, `c109_const`, `c109_const_mixed_refuted`; FS: `c109_centre`, `c109_linear`, `c109_linear_reversed_refuted`, `c109_start_refuted`, `c109_layers`, `c109_layers_vertical_refuted`, `c109_short_refuted`; FSNC: `c109_power`; FSN: `c109_vortex`, `c109_vortex_moves`, `c109_vortex_centre_refuted`; S: `c109_vortex_taken`
* **C110** FS: `c110_where`, `c110_terrain`, `c110_missing_refuted`, `c110_zero_refuted`, `c110_level_refuted`; closed: `c110_often`; S: `c110_short`
* **C111** closed: `c111_operator`; FS: `c111_tensor`, `c111_implicit`, `c111_unit_density`, `c111_density_refuted`, `c111_steady_refuted`, `c111_second_stage`, `c111_corrector`, `c111_faces_refuted`
* **C112** closed: `c112_points`, `c112_all_points`, `c112_inflow`, `c112_steps`, `c112_not_converged`, `c112_start`, `c112_counts`; S: `c112_arrays`; FS: `c112_orientation`, `c112_rotation`, `c112_section`, `c112_section_positive`, `c112_hub`, `c112_grids`, `c112_default_step`; FSN: `c112_units`
