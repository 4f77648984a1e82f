{
 "claims": [
  {
   "property": "C01",
   "status": "partial",
   "theorems": [
    "c01_time_advances_adaptive",
    "c01_time_advances_fixed",
    "c01_delay_window_refuted"
   ],
   "note": "Proved for adaptive runs and for fixed-dt runs starting after the delay window; the delay window without an initial dt is refuted (dt = -1)."
  },
  {
   "property": "C02",
   "status": "proved",
   "theorems": [
    "c02_max_step_bounds_run",
    "c02_fixed_dt_terminates",
    "c02_adaptive_terminates"
   ],
   "note": "max_step bound; fixed-dt and adaptive (with min_dt > 0) termination at stop_time."
  },
  {
   "property": "C03",
   "status": "partial",
   "theorems": [
    "c03_step_limits",
    "c03_cfl_number",
    "c03_first_step",
    "c03_min_dt_spurious_abort_refuted"
   ],
   "note": "All bounds proved for every adaptive step; \"min_dt aborts only if the flow requires it\" is refuted."
  },
  {
   "property": "C04",
   "status": "partial",
   "theorems": [
    "c04_enforced_times_hit",
    "c04_enforced_after_restart_refuted"
   ],
   "note": "Proved for runs from a clean start; after a restart at a non-multiple time the enforced times are refuted to match the output times."
  },
  {
   "property": "C05",
   "status": "partial",
   "theorems": [
    "c05_plot_schedule_fresh",
    "c05_checkpoint_schedule_fresh",
    "c05_plot_schedule_restart",
    "c05_checkpoint_schedule_restart",
    "c05_final_state_written_partial",
    "c05_final_state_written_refuted"
   ],
   "note": "Schedules proved for fresh and restarted runs; the final write is proved when the final index has passed the delay and refuted otherwise."
  },
  {
   "property": "C06",
   "status": "partial",
   "theorems": [
    "c06_restart_continues_partial",
    "c06_restart_adaptive_refuted"
   ],
   "note": "Restart equality proved for fixed dt; refuted for adaptive dt (saved dt is read but not used)."
  },
  {
   "property": "C07",
   "status": "proved",
   "theorems": [
    "c07_schedules_exclusive",
    "c07_post_once_fresh",
    "c07_post_once_restart",
    "c07_post_step_schedule"
   ],
   "note": "Mutual exclusion of the two interval kinds, at most one output per state, exact step schedule."
  },
  {
   "property": "C08",
   "status": "partial",
   "theorems": [
    "c08_plot_times",
    "c08_checkpoint_times",
    "c08_plot_once_fixed_dt_partial",
    "c08_checkpoint_once_fixed_dt_partial",
    "c08_post_once_fixed_dt_partial",
    "c08_skipped_refuted",
    "c08_duplicated_refuted"
   ],
   "note": "Exactly one output per multiple proved for fixed dt (files and post objects); for varying dt the written/due equivalence is proved, and skipping and duplication are refuted by witnesses."
  },
  {
   "property": "C09",
   "status": "proved",
   "theorems": [
    "c09_data_on_active_levels",
    "c09_every_handle",
    "c09_handles_distinct",
    "c09_handles_stay",
    "c09_write_isolated",
    "c09_defined"
   ],
   "note": "Invariant over every history of calls (declarations, states, levels made, regrids, writes, copies, advances, conversions). The AMReX fill operators are an arbitrary function."
  },
  {
   "property": "C10",
   "status": "partial",
   "theorems": [
    "c10_fresh",
    "c10_redeclare",
    "c10_rejects",
    "c10_reserved_name_refuted",
    "c10_zero_states_refuted",
    "c10_ghost_cells_refuted"
   ],
   "note": "Proved for declarations with at least one state; refuted: a reserved name that is an existing old state is accepted, zero states alias another field, ghost cells are not compared."
  },
  {
   "property": "C11",
   "status": "proved",
   "theorems": [
    "c11_advance",
    "c11_old_state",
    "c11_copy_state",
    "c11_older_state"
   ],
   "note": "One-step theorem for all fields and levels and history theorems for one and two advances ago (three states is the maximum the code accepts)."
  },
  {
   "property": "C12",
   "status": "partial",
   "theorems": [
    "c12_conversions",
    "c12_scalars_abort",
    "c12_many_components_refuted",
    "c12_copied_state_refuted"
   ],
   "note": "Any sequence of conversions of one field proved; refuted: more components than the mapping factor (out of bounds), and values copied between states do not carry the flag, so they are scaled twice."
  },
  {
   "property": "C13",
   "status": "proved",
   "theorems": [
    "c13_regrid",
    "c13_untouched",
    "c13_scratch"
   ],
   "note": ""
  },
  {
   "property": "C14",
   "status": "proved",
   "theorems": [
    "c14_bisection_search",
    "c14_hinted_search",
    "c14_nearest_search"
   ],
   "note": "Bisection (with probe bound), hinted and nearest search."
  },
  {
   "property": "C15",
   "status": "partial",
   "theorems": [
    "c15_total",
    "c15_exact_on_nodes",
    "c15_between",
    "c15_affine_exact",
    "c15_below",
    "c15_above",
    "c15_first_node_refuted"
   ],
   "note": "All parts proved; the first node is refuted when the first interval is not longer than the absolute tolerance."
  },
  {
   "property": "C16",
   "status": "proved",
   "theorems": [
    "c16_sweep_equals_pointwise",
    "c16_needs_order"
   ],
   "note": ""
  },
  {
   "property": "C17",
   "status": "proved",
   "theorems": [
    "c17_shorter_arc",
    "c17_nodes",
    "c17_period_invariant"
   ],
   "note": ""
  },
  {
   "property": "C18",
   "status": "partial",
   "theorems": [
    "c18_bilinear_exact",
    "c18_within_corner_values",
    "c18_outside_corner_partial",
    "c18_one_outside_refuted"
   ],
   "note": "Interior exactness and bounds proved, corner clamp proved; interpolation in the other coordinate when one is out of range is refuted."
  },
  {
   "property": "C19",
   "status": "partial",
   "theorems": [
    "c19_nothing_outside_period",
    "c19_time_average",
    "c19_fixed_step_calls",
    "c19_common_weights",
    "c19_within_samples",
    "c19_reynolds_realizable",
    "c19_adaptive_start_refuted",
    "c19_restart_refuted",
    "c19_restart_adaptive_refuted",
    "c19_duplicate_refuted",
    "c19_request_configured",
    "c19_request_new"
   ],
   "note": "Exact time mean, common weights, bounds, covariance identity and realizability proved for runs whose step size is known at initialisation (fixed step) and without duplicates; adaptive runs from t=0, restarts and duplicated requests are refuted."
  },
  {
   "property": "C20",
   "status": "proved",
   "theorems": [
    "c20_sum_of_trapezia",
    "c20_affine_exact",
    "c20_linear",
    "c20_monotone",
    "c20_additive"
   ],
   "note": ""
  },
  {
   "property": "C21",
   "status": "partial",
   "theorems": [
    "c21_plane_mean",
    "c21_decomposition_independent",
    "c21_hvelmag_mean",
    "c21_interpolated_mid",
    "c21_interpolated_at_centre",
    "c21_interpolated_ends",
    "c21_derivative_linear",
    "c21_second_moment",
    "c21_variance_nonneg",
    "c21_third_moment",
    "c21_second_accessor_partial",
    "c21_hvelmag_cell_refuted",
    "c21_second_accessor_refuted",
    "c21_moment_last_plane_refuted",
    "c21_single_plane_refuted"
   ],
   "note": "Plane means, horizontal speed, covariances and third moments proved for every decomposition, rank assignment and order of atomic additions; interpolation proved linear, bounded, exact at centres, constant beyond the ends. Refuted: the cell accessor of the horizontal speed, moment accessors for unequal component counts and for the last plane, height queries on a single-plane domain."
  },
  {
   "property": "C22",
   "status": "partial",
   "theorems": [
    "c22_index_box_partial",
    "c22_leaves_domain_refuted",
    "c22_far_box_refuted"
   ],
   "note": "Covering, totality near the domain and one-cell tightness proved; \"never leaves the domain\" is refuted (one extra plane of cells at the upper end), and far boxes are undefined behaviour."
  },
  {
   "property": "C23",
   "status": "partial",
   "theorems": [
    "c23_geometry",
    "c23_bound_box",
    "c23_left_handed_refuted",
    "c23_udf_partial",
    "c23_udf_tiling_refuted"
   ],
   "note": "Exact tagging proved for boxes (right-handed axes) and annular cylinders on every tiling; left-handed boxes are refuted (no cell is tagged); user functions: the bounding box does not bound the tagging and the result depends on the tiling (refuted)."
  },
  {
   "property": "C24",
   "status": "partial",
   "theorems": [
    "c24_static_partial",
    "c24_other_levels",
    "c24_outside_refuted"
   ],
   "note": "Covering proved for every level; cells just outside the domain and cells outside the requested boxes can be tagged (refuted)."
  },
  {
   "property": "C25",
   "status": "proved",
   "theorems": [
    "c25_rotation_proper",
    "c25_rotation_axis",
    "c25_rotation_sense",
    "c25_rotation_compose",
    "c25_rotation_inverse",
    "c25_quaternion_special",
    "c25_dot",
    "c25_cross",
    "c25_rotation_cross",
    "c25_tensor",
    "c25_normalize",
    "c25_degrees_radians"
   ],
   "note": "Exact real arithmetic; zero axes (division by zero) excluded."
  },
  {
   "property": "C26",
   "status": "proved",
   "theorems": [
    "c26_range",
    "c26_range_between",
    "c26_face_range"
   ],
   "note": "Any number of steps, any field (also outside [0,1]), any velocity, boundary types, sweep counter, debris option; one level, ghost fill arbitrary outside the valid cells."
  },
  {
   "property": "C27",
   "status": "proved",
   "theorems": [
    "c27_sweep_balance",
    "c27_sweep_sealed",
    "c27_step_unclipped",
    "c27_drift",
    "c27_unguarded_exact"
   ],
   "note": "Balance of one sweep for every box and field; conservation over a step when no cell is clipped, without any Courant condition; with a Courant condition the clipping is bounded for runs of any length, and is zero for the unguarded formulas. One level (flux averaging between levels is not modelled)."
  },
  {
   "property": "C28",
   "status": "proved",
   "theorems": [
    "c28_upwind",
    "c28_walls",
    "c28_wall_types",
    "c28_other_faces",
    "c28_full_or_empty",
    "c28_departure_slab"
   ],
   "note": "Exact real arithmetic. The fraction depends on the 27 cells around the upwind cell only, through the plane fitted there."
  },
  {
   "property": "C29",
   "status": "partial",
   "theorems": [
    "c29_each_once",
    "c29_counter",
    "c29_alternate",
    "c29_average_direction",
    "c29_fixed_point",
    "c29_fixed_point_refuted"
   ],
   "note": "Each direction once per step and alternation over any three advections are proved; with fixed-point iterations the counter advances per iteration, so the order alternates between steps only if 3 does not divide their number (c29_fixed_point, c29_fixed_point_refuted)."
  },
  {
   "property": "C30",
   "status": "partial",
   "theorems": [
    "c30_range",
    "c30_empty",
    "c30_full",
    "c30_exchange_transverse",
    "c30_exchange_cell",
    "c30_complement",
    "c30_mirror",
    "c30_scale",
    "c30_measure",
    "c30_measure_normal",
    "c30_measure_unguarded",
    "c30_monotone_partial",
    "c30_monotone_unguarded",
    "c30_monotone_refuted",
    "c30_offset_reproduces_partial",
    "c30_offset_unguarded",
    "c30_normal_unit",
    "c30_fit_range",
    "c30_offset_exact_refuted",
    "c30_levelset_range",
    "c30_levelset_sides",
    "c30_levelset_plane",
    "c30_interface_band",
    "c30_flat_interface"
   ],
   "note": "Range, empty/full, exchange of axes, complement, mirror and scale invariance are exact; the cut volume is the measure of the cut slab within a quarter machine epsilon; the fitted plane reproduces the fraction within 1/30000. Exact monotonicity and exact reproduction are refuted for the guarded code and proved for the unguarded formulas. Flat interfaces and affine level sets are exact."
  },
  {
   "property": "C31",
   "status": "partial",
   "theorems": [
    "c31_no_creation",
    "c31_droplets",
    "c31_orders_close",
    "c31_order_independent",
    "c31_order_refuted",
    "c31_neighbours_refuted",
    "c31_decomposition_refuted"
   ],
   "note": "No liquid is created and droplets of at least a millionth are removed identically for every order; exact order independence, the condition on neighbours and independence of the box decomposition are refuted (cells below a millionth; ghost cells from before the sweep)."
  },
  {
   "property": "C32",
   "status": "proved",
   "theorems": [
    "c32_levelset_run",
    "c32_levelset_width",
    "c32_levelset_corrector",
    "c32_levelset_content",
    "c32_mixture",
    "c32_mixture_positive",
    "c32_mixture_monotone",
    "c32_mixture_invertible",
    "c32_diffusivities",
    "c32_heaviside",
    "c32_heaviside_monotone",
    "c32_levelset_mixture",
    "c32_beta",
    "c32_free_surface",
    "c32_column_height",
    "c32_column_mass"
   ],
   "note": "Density, viscosity and diffusivities from the fraction and from the smoothed level set; fraction from an elevation, column height and mass; steps of the level set over a run, its content and the density it sets. Rates of convection are arguments. Exact reals."
  },
  {
   "property": "C33",
   "status": "proved",
   "theorems": [
    "c33_gradient",
    "c33_divergence",
    "c33_strain_vorticity",
    "c33_filter_affine",
    "c33_filter_bounds",
    "c33_decomposition",
    "c33_untouched",
    "c33_single_layer_refuted"
   ],
   "note": "First derivatives are exact for every quadratic field, the filter for affine ones; every tiling, every mix of periodic and non-periodic sides. Ghost cells behind a non-periodic side hold the face value (the convention of the boundary conditions); two cells between opposite non-periodic sides are needed (a single layer is refuted). Exact reals, one level at a time."
  },
  {
   "property": "C34",
   "status": "proved",
   "theorems": [
    "c34_laplacian",
    "c34_laplacian_affine",
    "c34_laplacian_of_vector",
    "c34_curvature",
    "c34_curvature_sphere",
    "c34_laplacian_refuted"
   ],
   "note": "Second and mixed derivatives for every quadratic; curvature is minus the divergence of the unit normal. The Laplacian operator applied to a velocity is not the Laplacian of any component (refuted)."
  },
  {
   "property": "C35",
   "status": "partial",
   "theorems": [
    "c35_psi_m",
    "c35_psi_h",
    "c35_profiles",
    "c35_profiles_increase",
    "c35_psi_continuous",
    "c35_terminates",
    "c35_result",
    "c35_neutral",
    "c35_stable",
    "c35_unstable_flux",
    "c35_unstable_temperature"
   ],
   "note": "Termination, neutral and stable cases, similarity functions and profiles for all inputs, with the slope of the profiles equal to the Businger-Dyer gradients. In unstable stratification positivity is proved as long as the stability-corrected log law is positive at a bound on the first iterate (missing: extreme convection, where the corrected log law can change sign). Exact reals."
  },
  {
   "property": "C36",
   "status": "partial",
   "theorems": [
    "c36_drag",
    "c36_aligned",
    "c36_aligned_refuted",
    "c36_plane_average",
    "c36_average_bound",
    "c36_homogeneous",
    "c36_local_magnitude",
    "c36_heat_average",
    "c36_heat_fixpoint",
    "c36_donelan_heat_refuted",
    "c36_mol",
    "c36_ghost",
    "c36_surface_temperature"
   ],
   "note": "Local, Schumann and Donelan models are aligned with the wind; plane averages of constant, Schumann and Moeng models agree; drag bounds; heat flux average at the fixed point of the iteration. Alignment is refuted for the constant and Moeng models, and the heat flux of the Donelan model has the opposite sign to the others (refuted)."
  },
  {
   "property": "C37",
   "status": "partial",
   "theorems": [
    "c37_gamma_generate",
    "c37_gamma_absorb",
    "c37_absorb_factor",
    "c37_gamma_continuous",
    "c37_ramp",
    "c37_blend",
    "c37_zone_range",
    "c37_between_zones",
    "c37_inflow",
    "c37_outside",
    "c37_fraction",
    "c37_converges",
    "c37_fixed",
    "c37_density",
    "c37_velocity_partial",
    "c37_velocity_liquid",
    "c37_velocity_between_refuted",
    "c37_profile_regions",
    "c37_profile_range",
    "c37_profile_continuous",
    "c37_profile_sides"
   ],
   "note": "Coefficients, ramp, blending, fraction, density and initial profiles proved; the forced velocity lies between old and target only where no liquid is added (or the cell is full): where liquid is added the target is counted twice and the result overshoots it (refuted), by at most the difference itself."
  },
  {
   "property": "C38",
   "status": "proved",
   "theorems": [
    "c38_identity",
    "c38_ends",
    "c38_symmetric",
    "c38_derivative",
    "c38_factor_positive",
    "c38_increasing",
    "c38_range",
    "c38_clustering",
    "c38_arrays",
    "c38_determinant",
    "c38_coordinates",
    "c38_order",
    "c38_physical_refuted",
    "c38_constant"
   ],
   "note": "End points, monotonicity, symmetry, clustering, stretching factor equal to the derivative of the map, and determinant, for every stretching parameter; exact reals. When the physical extent in the input differs from the problem extent, coordinates and factors disagree (c38_physical_refuted)."
  },
  {
   "property": "C39",
   "status": "proved",
   "theorems": [
    "c39_no_work",
    "c39_linear",
    "c39_rotation",
    "c39_horizontal",
    "c39_hemisphere"
   ],
   "note": "Equal to -2 Omega x u for every orthogonal east/north pair; exact reals."
  },
  {
   "property": "C40",
   "status": "partial",
   "theorems": [
    "c40_contains",
    "c40_locations",
    "c40_clamp",
    "c40_line",
    "c40_volume",
    "c40_probe",
    "c40_plane",
    "c40_plane_points",
    "c40_plane_unchanged",
    "c40_plane_aligned",
    "c40_plane_accepted",
    "c40_plane_corner_refuted",
    "c40_particles",
    "c40_uids",
    "c40_buffer",
    "c40_output",
    "c40_affine",
    "c40_bounds",
    "c40_nodal",
    "c40_reads",
    "c40_clamp_double_refuted"
   ],
   "note": "Line, plane, volume, probe-file samplers, particle creation for every box decomposition, buffer collection for every distribution over ranks, interpolation. Refuted: a plane is accepted although its fourth corner is outside (c40_plane_corner_refuted); in double precision the clamp margin vanishes in large domains (c40_clamp_double_refuted). Lidar, radar, spinner and free-surface samplers not modelled."
  },
  {
   "property": "C41",
   "status": "proved",
   "theorems": [
    "c41_bracket",
    "c41_exact",
    "c41_linear",
    "c41_refused",
    "c41_edges",
    "c41_one_record_refuted",
    "c41_fill",
    "c41_fill_faces",
    "c41_run"
   ],
   "note": "For every table of at least two records that are 2.2e-8 s or more apart (times within 2.5e7 s for equality at records), and every sequence of requests, also decreasing ones. A table with one record is always out of bounds (c41_one_record_refuted). The erf-multiblock format is not modelled."
  },
  {
   "property": "C42",
   "status": "partial",
   "theorems": [
    "c42_create",
    "c42_distinct",
    "c42_shipped",
    "c42_register_twice_refuted",
    "c42_collection",
    "c42_collection_dup"
   ],
   "note": "Factories and collections for every registration and request history. The last part of the statement is false: a second registration silently replaces the first (c42_register_twice_refuted); the shipped keyword tables contain no such clash (c42_shipped)."
  },
  {
   "property": "C43",
   "status": "partial",
   "theorems": [
    "c43_dry_run_no_step",
    "c43_dry_run_files_partial",
    "c43_dry_run_checkpoint_refuted",
    "c43_dry_run_plot_refuted"
   ],
   "note": "No step is proved for every deck; one plot/no checkpoint is proved without checkpoint settings and refuted otherwise (misspelt key, plot_delay, plot_time_interval)."
  },
  {
   "property": "C44",
   "status": "partial",
   "theorems": [
    "c44_header",
    "c44_header_all",
    "c44_replicate",
    "c44_restart",
    "c44_noninteger",
    "c44_below_refuted",
    "c44_double_refuted",
    "c44_fields",
    "c44_fields_nodal",
    "c44_ncell_refuted",
    "c44_moved_refuted",
    "c44_levels_refuted"
   ],
   "note": "Checkpoint header round trip, replication of the boxes, restart of the simulation state and of every declared field, for all headers, box lists, domains and replication factors, over exact numbers. Refuted: domain lengths below an integer multiple are truncated (c44_below_refuted), in double precision exact decimal multiples such as 0.1 to 0.3 abort (c44_double_refuted), without replication a changed n_cell or a shifted domain is not noticed (c44_ncell_refuted, c44_moved_refuted), and more levels than max_level are accepted (c44_levels_refuted). The binary field data are represented by functions."
  },
  {
   "property": "C45",
   "status": "partial",
   "theorems": [
    "c45_derived",
    "c45_filter_stale_refuted",
    "c45_parse",
    "c45_parse_empty_refuted",
    "c45_derived_vars",
    "c45_selected",
    "c45_idempotent",
    "c45_layout",
    "c45_consecutive",
    "c45_names_distinct",
    "c45_names_collide_refuted",
    "c45_derived_dropped_refuted"
   ],
   "note": "Selection, layout, names, consecutive components, idempotence and request parsing for all inputs. Refuted: names can collide (c45_names_collide_refuted), a derived quantity can be dropped without being replaced (c45_derived_dropped_refuted), stale positions after filtering, undefined behaviour for an empty argument list. Field data are represented by their origin."
  },
  {
   "property": "C46",
   "status": "partial",
   "theorems": [
    "c46_mask",
    "c46_mask_mac",
    "c46_mask_nodal",
    "c46_mask_mac_frame",
    "c46_mask_restored",
    "c46_harmonize",
    "c46_postsolve",
    "c46_postsolve_bits_refuted",
    "c46_velocity_bits_refuted",
    "c46_sharpen_frame",
    "c46_sharpen_pressure",
    "c46_sharpen_clip_refuted"
   ],
   "note": "Masks for both projections, their preparation and restoration, harmonization, pressure gradient replacement and the whole sharpening loop, for every blanking field, over exact reals. \"Bitwise unchanged\" is refuted: velocities of unmasked cells change in the last bits (c46_postsolve_bits_refuted, c46_velocity_bits_refuted) and volume fractions close to 0 or 1 are cut off in all cells (c46_sharpen_clip_refuted). One level."
  },
  {
   "property": "C47",
   "status": "proved",
   "theorems": [
    "c47_regrid_schedule"
   ],
   "note": "Exact schedule for fresh and restarted runs."
  },
  {
   "property": "C48",
   "status": "partial",
   "theorems": [
    "c48_restart_order_refuted",
    "c48_restart_order_partial"
   ],
   "note": "Refuted in general (the counter is not in the checkpoint); proved when the checkpoint is a multiple of three steps after the start."
  },
  {
   "property": "C49",
   "status": "proved",
   "theorems": [
    "c49_reference_density",
    "c49_hydrostatic_balance",
    "c49_pressure_top"
   ],
   "note": ""
  },
  {
   "property": "C50",
   "status": "partial",
   "theorems": [
    "c50_dispersion",
    "c50_linear_flow",
    "c50_linear_surface",
    "c50_linear_profile",
    "c50_linear_target",
    "c50_stokes_height",
    "c50_stokes_travel",
    "c50_stokes_flow",
    "c50_wavelength_consistent",
    "c50_wavelength_partial",
    "c50_last_step_refuted"
   ],
   "note": "Linear waves proved completely; Stokes waves for arbitrary coefficients below the depth cap; the accepted wave length meets the tolerance with the factor of the previous iterate, not its own (missing: convergence), and success in the last permitted iteration is reported as failure (refuted). The coefficients themselves are the subject of C79."
  },
  {
   "property": "C51",
   "status": "partial",
   "theorems": [
    "c51_nonlinear_partial",
    "c51_nonlinear_refuted"
   ],
   "note": "Seven of nine components; components (2,2) and (2,3) use a wrong factor and are refuted."
  },
  {
   "property": "C52",
   "status": "proved",
   "theorems": [
    "c52_geostrophic",
    "c52_geostrophic_full",
    "c52_table",
    "c52_hurricane",
    "c52_hurricane_default_refuted"
   ],
   "note": "Exact reals; values interpolated from tables enter as arguments. With default rotation periods the hurricane forcing and the Coriolis term use different days (c52_hurricane_default_refuted)."
  },
  {
   "property": "C53",
   "status": "partial",
   "theorems": [
    "c53_rayleigh_range",
    "c53_rayleigh_monotone",
    "c53_rayleigh_no_jump",
    "c53_rayleigh_damps",
    "c53_ramp",
    "c53_ramp_monotone",
    "c53_abl",
    "c53_mast",
    "c53_mast_centre",
    "c53_mast_radius_refuted",
    "c53_free",
    "c53_timescale_refuted",
    "c53_sponge_high",
    "c53_sponge_low",
    "c53_sponge_sign_refuted"
   ],
   "note": "Proved for all layers; refuted parts: met-mast cut-off radius without terrain, time scale of the velocity free-atmosphere forcing, sponge with a positive distance on the low side."
  },
  {
   "property": "C54",
   "status": "partial",
   "theorems": [
    "c54_boussinesq",
    "c54_mean",
    "c54_density",
    "c54_gravity",
    "c54_profile_file_refuted",
    "c54_body"
   ],
   "note": "Proved for all terms; the temperature-profile file name of the mean Boussinesq term is ignored (c54_profile_file_refuted)."
  },
  {
   "property": "C55",
   "status": "partial",
   "theorems": [
    "c55_forest",
    "c55_blanked",
    "c55_free_air",
    "c55_log_law",
    "c55_bc",
    "c55_viscous_refuted",
    "c55_form",
    "c55_form_refuted",
    "c55_moving_wall_refuted",
    "c55_temperature",
    "c55_temperature_surface",
    "c55_temperature_inputs_refuted"
   ],
   "note": "Forest, terrain interior, log-law target and free air proved; refuted: sign of the viscous and form stress, dependence on the frame of a moving surface, coefficient names of the heat version."
  },
  {
   "property": "C56",
   "status": "proved",
   "theorems": [
    "c56_blank",
    "c56_column",
    "c56_drag_exists",
    "c56_waves"
   ],
   "note": "Whole columns, ghost cells included; the height of the column (interpolated terrain or wave volume fraction) is an argument."
  },
  {
   "property": "C57",
   "status": "proved",
   "theorems": [
    "c57_m84",
    "c57_m84_wall",
    "c57_kwsst",
    "c57_axell",
    "c57_axell_terrain"
   ],
   "note": "One-equation LES, k-omega source assembly and one-equation RANS with and without terrain; shear and buoyancy production and length scales are arguments."
  },
  {
   "property": "C58",
   "status": "partial",
   "theorems": [
    "c58_closed_interior",
    "c58_closed_periodic",
    "c58_volume",
    "c58_conserved",
    "c58_bounded",
    "c58_at_rest",
    "c58_pseudo_step",
    "c58_iterations",
    "c58_stopping",
    "c58_pressure",
    "c58_zero_tolerance_refuted",
    "c58_interval_refuted",
    "c58_volume_created_refuted"
   ],
   "note": "Proved for one level and any ghost fill, for closed or periodic domains. Refuted: cutting off can create volume because the pseudo time step limits faces, not cells (c58_volume_created_refuted); a zero convergence tolerance performs no iteration (c58_zero_tolerance_refuted); interval zero divides by zero (c58_interval_refuted). Averaging of fluxes between levels is not modelled."
  },
  {
   "property": "C59",
   "status": "partial",
   "theorems": [
    "c59_native",
    "c59_native_average",
    "c59_native_nonperiodic_refuted",
    "c59_netcdf_low",
    "c59_netcdf_high_refuted",
    "c59_netcdf_shift_refuted",
    "c59_cells",
    "c59_faces"
   ],
   "note": "Native format proved for periodic directions and NetCDF for low planes whose boxes reach the corner of the minimal box. Refuted: native planes in directions that are not periodic average with the filler 1e13 (c59_native_nonperiodic_refuted), NetCDF high planes average two cells outside the domain (c59_netcdf_high_refuted), NetCDF rows are shifted for other box layouts (c59_netcdf_shift_refuted). Native files of refined levels and their headers are not modelled."
  },
  {
   "property": "C60",
   "status": "partial",
   "theorems": [
    "c60_integral",
    "c60_constant",
    "c60_boxes",
    "c60_kinetic_energy",
    "c60_uniform_flow",
    "c60_enstrophy",
    "c60_refinement",
    "c60_liquid_height",
    "c60_wave_kinetic",
    "c60_wave_potential",
    "c60_wave_still",
    "c60_wave_level_refuted"
   ],
   "note": "Integrals, kinetic energy and enstrophy for every nested hierarchy over exact reals. The last sentence is refuted for a water level other than zero (c60_wave_level_refuted): the potential energy reported for still water is gravity times the water level (c60_wave_still). The parallel reduction is a sum."
  },
  {
   "property": "C61",
   "status": "partial",
   "theorems": [
    "c61_magnitude",
    "c61_mean",
    "c61_constant",
    "c61_infinity",
    "c61_order",
    "c61_unmasked_refuted",
    "c61_points_constant",
    "c61_points_refined_refuted",
    "c61_points_mask",
    "c61_infinity_points_refuted"
   ],
   "note": "Cell data for every nested hierarchy; face and node data on one level (c61_points_constant). Refuted: with refinement the weights of face data do not add up to the volume (c61_points_refined_refuted), the infinity norm of face or node data reads the mask outside of its array (c61_infinity_points_refuted), mask_redundant_grids = false counts covered cells (c61_unmasked_refuted)."
  },
  {
   "property": "C62",
   "status": "partial",
   "theorems": [
    "c62_masked",
    "c62_velocity",
    "c62_location",
    "c62_printed",
    "c62_location_refuted"
   ],
   "note": "Extrema proved for every nested hierarchy. The printed location is proved to be attained only when the maximum is attained in one cell; with several it mixes their coordinates (c62_location_refuted)."
  },
  {
   "property": "C63",
   "status": "partial",
   "theorems": [
    "c63_theta",
    "c63_corrector",
    "c63_budget",
    "c63_budget_corrector",
    "c63_conserved",
    "c63_conserved_corrector",
    "c63_mass",
    "c63_flux_scales",
    "c63_uniform",
    "c63_uniform_corrector",
    "c63_implicit_bounds",
    "c63_face_viscosity",
    "c63_explicit_bounds",
    "c63_energy",
    "c63_masked",
    "c63_mapped_refuted"
   ],
   "note": "Scalars on one level of any size; the linear solver is exact; convective fluxes are arguments (Godunov fluxes come from AMReX-Hydro), the method-of-lines flux is modelled; momentum uses the tensor operator of AMReX and is not covered. Refuted: with mesh mapping and explicit Godunov diffusion the amount is not conserved, because the second stage is not divided by the Jacobian (c63_mapped_refuted)."
  },
  {
   "property": "C64",
   "status": "partial",
   "theorems": [
    "c64_courant",
    "c64_interface",
    "c64_diffusion",
    "c64_scalar_refuted",
    "c64_masked",
    "c64_attained",
    "c64_prescribed",
    "c64_prescribed_refuted",
    "c64_documented_refuted"
   ],
   "note": "Exact reals; the restrictions that SimTime applies afterwards only shorten the step (C03). Refuted parts: prescribed velocities get the full CFL number near the interface (c64_prescribed_refuted); scalar diffusivities are not looked at, so explicit diffusion with Prandtl number 1/3 leaves its range at cfl 1 (c64_scalar_refuted); the documentation adds the accelerations of the directions, the code takes the largest (c64_documented_refuted)."
  },
  {
   "property": "C65",
   "status": "partial",
   "theorems": [
    "c65_types",
    "c65_types_stop",
    "c65_velocity",
    "c65_scalar",
    "c65_vof",
    "c65_extrapolated",
    "c65_pressure",
    "c65_accept_velocity",
    "c65_accept_vof",
    "c65_velocity_values",
    "c65_pressure_values",
    "c65_fill",
    "c65_fill_other",
    "c65_fill_boundary_face",
    "c65_wall_partial",
    "c65_wall_refuted",
    "c65_udf",
    "c65_udf_used_partial",
    "c65_udf_names",
    "c65_udf_used_refuted",
    "c65_udf_silent_refuted",
    "c65_gradient",
    "c65_inflow_outflow",
    "c65_inflow_outflow_twice",
    "c65_inflow_outflow_order_refuted",
    "c65_set_inflow",
    "c65_face_inflow",
    "c65_wave_maker_refuted",
    "c65_udf_conflict",
    "c65_accept_scalar",
    "c65_scalar_values",
    "c65_vof_values"
   ],
   "note": "Acceptance is proved as an equivalence for velocity, scalars and volume fraction; the extrapolations and the linear operators themselves are AMReX code and enter as tables. Refuted: slip, wall-model and symmetry faces with a velocity in the input leak (c65_wall_refuted; proved without one, c65_wall_partial); with both an inflow and an inflow-outflow function the second replaces the first on plain inflows (c65_udf_used_refuted); an inflow face with its own constant silently gets the function of another face (c65_udf_silent_refuted); a wave maker stores the profile of another inflow on its faces (c65_wave_maker_refuted); inflow-outflow temperature depends on whether the velocity condition ran before (c65_inflow_outflow_order_refuted)."
  },
  {
   "property": "C66",
   "status": "partial",
   "theorems": [
    "c66_linear",
    "c66_linear_range",
    "c66_power_law",
    "c66_power_reference",
    "c66_power_monotone",
    "c66_burggraf",
    "c66_two_layer",
    "c66_two_layer_vertical_refuted",
    "c66_rankine",
    "c66_rankine_bound",
    "c66_rankine_travels",
    "c66_rankine_centre_refuted"
   ],
   "note": "Exact reals, profiles as functions of the coordinates. Refuted: the vertical velocity of the two-layer profile is ignored (c66_two_layer_vertical_refuted) and a cell centre at the vortex centre gives 0/0 (c66_rankine_centre_refuted)."
  },
  {
   "property": "C67",
   "status": "partial",
   "theorems": [
    "c67_smagorinsky",
    "c67_smagorinsky_sign",
    "c67_smagorinsky_mesh",
    "c67_smagorinsky_frame",
    "c67_amd_formula",
    "c67_amd_bound",
    "c67_amd_off",
    "c67_amd_renumbered",
    "c67_amd_frame",
    "c67_amd_neutral",
    "c67_amd_buoyancy",
    "c67_amd_heat",
    "c67_amd_heat_formula",
    "c67_amd_heat_laminar_refuted",
    "c67_kosovic_base",
    "c67_kosovic_constants",
    "c67_kosovic_blend_partial",
    "c67_kosovic_blend_refuted",
    "c67_kosovic_surface",
    "c67_kosovic_terrain",
    "c67_kosovic_sign",
    "c67_kosovic_stress",
    "c67_kosovic_wall_partial",
    "c67_kosovic_wall_refuted",
    "c67_kosovic_kappa_refuted",
    "c67_kosovic_heat",
    "c67_oneeq_length",
    "c67_oneeq_viscosity",
    "c67_oneeq_budget",
    "c67_stratification",
    "c67_oneeq_hybrid",
    "c67_effective",
    "c67_clip",
    "c67_clip_positive_refuted",
    "c67_source_terms",
    "c67_source_terms_again"
   ],
   "note": "All listed statements are proved; the surface-layer blend of the Kosovic model is only bounded (c67_kosovic_blend_partial) and its reading as an interpolation, its wall distance, its use of the von Karman constant, the laminar part of the AMD heat diffusivity and strict positivity after clipping are refuted by counterexample."
  },
  {
   "property": "C68",
   "status": "partial",
   "theorems": [
    "c68_blending",
    "c68_viscosity",
    "c68_wall",
    "c68_production",
    "c68_formulas",
    "c68_implicit",
    "c68_explicit",
    "c68_predictor_partial",
    "c68_explicit_predictor_refuted",
    "c68_ambient_refuted",
    "c68_omega_decay_partial",
    "c68_omega_decay_refuted",
    "c68_hybrid_blend",
    "c68_hybrid_near_wall",
    "c68_hybrid_budget",
    "c68_hybrid_lengths",
    "c68_hybrid_elevation_refuted"
   ],
   "note": "Bounds, monotonicity, implicit and explicit budgets and the near-wall equality of the hybrid are proved; the predictor budgets are proved as they are (c68_predictor_partial, c68_omega_decay_partial) and the intended ones refuted (half dissipation, lost ambient terms, doubled omega decay, elevating function)."
  },
  {
   "property": "C69",
   "status": "proved",
   "theorems": [
    "c69_limited",
    "c69_limited_order",
    "c69_functions",
    "c69_prandtl_consistent",
    "c69_wall_length",
    "c69_height",
    "c69_length",
    "c69_formulas",
    "c69_viscosity",
    "c69_heat",
    "c69_memory"
   ],
   "note": "Real arithmetic; a zero turbulence energy divides zero by zero in the code and is excluded by hypothesis. The inputs Cmu_prime and prandtl are read and never used by the code, so they do not occur in the model."
  },
  {
   "property": "C70",
   "status": "partial",
   "theorems": [
    "c70_areas",
    "c70_averages",
    "c70_uniform_flow",
    "c70_points",
    "c70_points_in_ring",
    "c70_vertical_sampling_refuted",
    "c70_bearing",
    "c70_default_sampling"
   ],
   "note": "All statements are proved; a vertical sampling direction is refuted: all upstream points then coincide (c70_vertical_sampling_refuted)."
  },
  {
   "property": "C71",
   "status": "partial",
   "theorems": [
    "c71_thrust",
    "c71_takes_energy",
    "c71_wind_from_behind_refuted",
    "c71_spread",
    "c71_profile",
    "c71_gaussian",
    "c71_gauss_points_partial",
    "c71_gauss_placement_refuted",
    "c71_gauss_source"
   ],
   "note": "Thrust, energy and linear spreading are proved. The Gaussian points are proved to lie on the disk only when the disk axis goes through the origin (c71_gauss_points_partial) and refuted otherwise; that the disk always takes energy is refuted for wind from behind."
  },
  {
   "property": "C72",
   "status": "partial",
   "theorems": [
    "c72_azimuthal_weight",
    "c72_thrust",
    "c72_solvable_plain",
    "c72_blade_element",
    "c72_power",
    "c72_single_ring_refuted",
    "c72_corrections",
    "c72_side_force",
    "c72_solid_body"
   ],
   "note": "All statements are proved for two or more rings, under the solvability condition that the program does not check (met by c72_solvable_plain); the reported power is refuted for a single ring. Real arithmetic; up to 2^51 rings, because of the machine-epsilon floors."
  },
  {
   "property": "C73",
   "status": "partial",
   "theorems": [
    "c73_tiles",
    "c73_box_aligned",
    "c73_aligned_error",
    "c73_box_yawed_refuted",
    "c73_missing_source_refuted"
   ],
   "note": "The tile statement is proved for every kernel; the box statement for disks facing along x or y (c73_box_aligned, c73_aligned_error), and refuted for every other upright disk, with a tile that receives nothing although the disk passes through it."
  },
  {
   "property": "C74",
   "status": "partial",
   "theorems": [
    "c74_points",
    "c74_position",
    "c74_velocity",
    "c74_restart_refuted"
   ],
   "note": "Points, widths, position, sampling position and velocity are proved for every run. That a restarted run continues the motion is refuted (c74_restart_refuted): the wing starts again from its input position."
  },
  {
   "property": "C75",
   "status": "partial",
   "theorems": [
    "c75_frame",
    "c75_force",
    "c75_energy",
    "c75_flat_plate_refuted",
    "c75_reversed_flow_refuted",
    "c75_relative",
    "c75_flags",
    "c75_totals"
   ],
   "note": "All statements are proved for a given polar, down to a wind of 2^-52 across the span (below it the force is zero). That flat plates take energy and that the angle of attack stays in the range of the table are refuted. The lifting line correction is not part of it."
  },
  {
   "property": "C76",
   "status": "partial",
   "theorems": [
    "c76_kernel",
    "c76_axes",
    "c76_isotropic",
    "c76_span_z_refuted",
    "c76_box",
    "c76_missed",
    "c76_tiles",
    "c76_small_chord_refuted",
    "c76_support_refuted",
    "c76_sine_refuted",
    "c76_plane",
    "c76_box_2d",
    "c76_box_plate",
    "c76_inputs"
   ],
   "note": "The kernel is proved for every width; its axes for wings along y with the chord along x, for equal widths for every orientation, and refuted along z. The box is proved for a largest chord of at least one and a motion that the box was made for (c76_box, c76_missed, c76_tiles), and refuted for small chords, for negative amplitudes, and for the full support of the kernel. The integral of the Gaussian is by its constant, not by integration."
  },
  {
   "property": "C77",
   "status": "partial",
   "theorems": [
    "c77_points",
    "c77_widths",
    "c77_spacing_refuted",
    "c77_lift",
    "c77_axes_refuted",
    "c77_induced_const",
    "c77_shed",
    "c77_kernel",
    "c77_induced_var",
    "c77_target_const",
    "c77_target_var",
    "c77_target_nonuniform",
    "c77_relaxation",
    "c77_equal_widths",
    "c77_start",
    "c77_no_spanwise"
   ],
   "note": "Relaxation, start, equal widths, induced velocities of both forms, shed circulation, kernel and the direction without force are proved for every wing (c77_relaxation ... c77_no_spanwise), and the two target velocities as sums over the other points of what is shed there, for the constant form, the variable form and points generated along the span (c77_target_const, c77_target_var, c77_target_nonuniform). The spacing is proved at the generated points (c77_points); that it resolves the width between them is refuted (c77_spacing_refuted). That only lift gives circulation is proved for the vector the code projects with (c77_lift) and refuted for the wing along other axes (c77_axes_refuted). Missing: different numbers of force and velocity points, where the span distance is taken from the coordinate origin."
  },
  {
   "property": "C78",
   "status": "partial",
   "theorems": [
    "c78_influenced",
    "c78_level_geom",
    "c78_root",
    "c78_balance",
    "c78_local_root",
    "c78_regrid",
    "c78_interp",
    "c78_interp_bounds",
    "c78_velocities",
    "c78_no_boxes",
    "c78_root_without_boxes_refuted",
    "c78_wing",
    "c78_wing_at_rest",
    "c78_regrid_moves_wing_refuted",
    "c78_label",
    "c78_unknown_label_refuted"
   ],
   "note": "Ranks of an actuator, roots, balance, locality of the root, interpolation and the delivery of velocities to the points are proved for every distribution and arrival order (c78_influenced ... c78_velocities); labels are found (c78_label). Refuted: a root on a rank without boxes samples zeros (c78_root_without_boxes_refuted); a moving wing that reaches a new rank after a regrid starts from its initial place there (c78_regrid_moves_wing_refuted), with the positive statements for ranks it is always on and wings at rest (c78_wing, c78_wing_at_rest); an unknown label gives the first actuator. Not modelled: Redistribute itself (any delivery to the rank that owns the position is allowed) and turbines of external codes."
  },
  {
   "property": "C79",
   "status": "partial",
   "theorems": [
    "c79_order",
    "c79_potential",
    "c79_free_surface",
    "c79_mean",
    "c79_slope",
    "c79_slope_refuted",
    "c79_decay",
    "c79_clamped",
    "c79_decay_refuted"
   ],
   "note": "Every coefficient of stokes_coefficients is modelled; the free-surface conditions hold to order+1 in the steepness with a constant that depends on the order and kd alone, for all orders and depths below the cap of 50 pi (c79_free_surface), the potential (c79_potential; the bottom is c50_stokes_flow), means (c79_mean) and refusals (c79_order). The slope of the wave-number iteration is the derivative below order 4 and is off by an explicit amount from order 4 on (c79_slope, c79_slope_refuted). The decay with depth is proved for order 2 below the cap (c79_decay); above it the velocity does not depend on depth for any order (c79_clamped, c79_decay_refuted). Missing: decay for orders 3 to 5, where the amplitudes may have either sign."
  },
  {
   "property": "C80",
   "status": "partial",
   "theorems": [
    "c80_mass",
    "c80_mass_exact",
    "c80_uniform_flux",
    "c80_uniform_step",
    "c80_uniform_exact",
    "c80_scalar_after_vof",
    "c80_scalar_before_vof",
    "c80_single_phase",
    "c80_donor",
    "c80_traced",
    "c80_momentum",
    "c80_accelerated_flux",
    "c80_inflow",
    "c80_inflow_refuted",
    "c80_debris",
    "c80_debris_refuted",
    "c80_order_refuted"
   ],
   "note": "Mass balance per cell to 1e-4 of the density difference (c80_mass) and exactly without the machine-epsilon guard of the plane intercept (c80_mass_exact); uniform velocity and uniform scalar advanced after the volume fraction (c80_uniform_flux, c80_uniform_step, c80_uniform_exact, c80_scalar_after_vof); momentum (c80_momentum); pure phases (c80_single_phase); first-order upwinding (c80_donor); uniform acceleration (c80_accelerated_flux). Refuted: an inflow face near the interface carries the prescribed velocity times the ratio of half-time to old boundary density (c80_inflow, c80_inflow_refuted), a scalar registered before the volume fraction (c80_scalar_before_vof, c80_order_refuted), and cells emptied by VOF.remove_debris, on by default (c80_debris, c80_debris_refuted). Edge states of AMReX-Hydro are arguments. Missing: several levels, overset, mesh mapping."
  },
  {
   "property": "C81",
   "status": "partial",
   "theorems": [
    "c81_inverse",
    "c81_least_squares",
    "c81_cubic_exact",
    "c81_momentum_uniform",
    "c81_momentum_weights_refuted",
    "c81_momentum_few_refuted",
    "c81_direct",
    "c81_blend",
    "c81_plain",
    "c81_variable",
    "c81_weights",
    "c81_weights_short_refuted",
    "c81_thickness",
    "c81_surface_flux",
    "c81_constant",
    "c81_constant_forcing",
    "c81_constant_bottom_refuted",
    "c81_constant_top_refuted",
    "c81_direct_constant_refuted",
    "c81_case_refuted",
    "c81_variable_missing_refuted",
    "c81_tendency",
    "c81_tendency_scheme_refuted",
    "c81_keywords"
   ],
   "note": "Inverse (c81_inverse), existence and least-squares property of the cubic (c81_least_squares), reproduction of cubics (c81_cubic_exact), direct forcing (c81_direct), indirect-to-direct (c81_blend), transition to a constant (c81_constant) tendencies (c81_tendency), forcing without a transition (c81_plain), time-dependent transition heights (c81_variable), weights and thickness of the layer (c81_weights, c81_thickness), surface flux (c81_surface_flux), the forcing with a constant transition (c81_constant_forcing) and the keywords (c81_keywords) are proved for temperature, and for momentum when all weights are equal (c81_momentum_uniform). Refuted: weights given on too few heights (c81_weights_short_refuted); with other weights the momentum regression takes the weight of the wrong height (c81_momentum_weights_refuted) and with fewer than four heights reads past their end (c81_momentum_few_refuted); a layer that starts at the first height, above the last but one, or a direct scheme with a constant transition has no defined result (c81_constant_bottom_refuted, c81_constant_top_refuted, c81_direct_constant_refuted); the keyword is matched by case (c81_case_refuted); a missing transition height is taken as zero (c81_variable_missing_refuted); tendencies are dropped without a scheme (c81_tendency_scheme_refuted). Missing: rounding, and reading of the file."
  },
  {
   "property": "C82",
   "status": "partial",
   "theorems": [
    "c82_lidar",
    "c82_lidar_periodic",
    "c82_lidar_offset_refuted",
    "c82_lidar_wrap_refuted",
    "c82_lidar_sizes",
    "c82_sweep",
    "c82_sweep_rate",
    "c82_elevation",
    "c82_elevation_empty",
    "c82_beam",
    "c82_cone",
    "c82_beam_end_refuted",
    "c82_vertical_refuted",
    "c82_single_point_refuted",
    "c82_los",
    "c82_average",
    "c82_closed_cone_refuted",
    "c82_uniform",
    "c82_second_beam_refuted",
    "c82_beams",
    "c82_clock",
    "c82_beam_times",
    "c82_clock_refuted",
    "c82_netcdf_refuted"
   ],
   "note": "Lidar direction, length, table times and periodic tables that start at time zero (c82_lidar, c82_lidar_periodic, c82_lidar_sizes); radar swing, rate, elevations (c82_sweep, c82_sweep_rate, c82_elevation, c82_elevation_empty); rays and points for a unit axis perpendicular to a unit vertical (c82_beam, c82_cone); projection, averaging and a uniform wind (c82_los, c82_average, c82_uniform); clock with output at every equal step (c82_beams, c82_clock, c82_beam_times). Refuted: periodic tables with another first time (c82_lidar_offset_refuted), azimuths across north (c82_lidar_wrap_refuted), the last point of a beam (c82_beam_end_refuted), a vertical axis, a single point, a closed cone (c82_vertical_refuted, c82_single_point_refuted, c82_closed_cone_refuted), every beam of a scan but the first (c82_second_beam_refuted), the clock with larger steps or sparser output (c82_clock_refuted), NetCDF output without the velocity (c82_netcdf_refuted). Missing: axes that are not perpendicular or not of unit length, an origin outside the domain, the NetCDF files."
  },
  {
   "property": "C83",
   "status": "partial",
   "theorems": [
    "c83_field",
    "c83_jump_refuted",
    "c83_field_input",
    "c83_gradient",
    "c83_unlisted",
    "c83_values_input",
    "c83_curvature",
    "c83_curvature_cap_refuted",
    "c83_curvature_unlisted_refuted",
    "c83_curvature_aspect_refuted",
    "c83_vorticity",
    "c83_q",
    "c83_q_unity_refuted",
    "c83_q_scale",
    "c83_overset",
    "c83_union"
   ],
   "note": "Values and jumps for every field (c83_field), gradient, vorticity and Q for every quadratic field on every mesh (c83_gradient, c83_vorticity, c83_q, c83_q_scale), curvature on cubic cells for values up to the inverse cell size (c83_curvature), overset (c83_overset), inputs (c83_field_input, c83_values_input), levels without a value for all but curvature (c83_unlisted), several criteria (c83_union). Refuted: the jump does not scale with the cell size like a gradient (c83_jump_refuted); curvature values above the inverse cell size and levels without a value (c83_curvature_cap_refuted, c83_curvature_unlisted_refuted); curvature on cells that are not cubes (c83_curvature_aspect_refuted); the meaning of a non-dimensional Q of one (c83_q_unity_refuted). Missing: rounding; ghost cells are taken as filled."
  },
  {
   "property": "C84",
   "status": "partial",
   "theorems": [
    "c84_input",
    "c84_points",
    "c84_number",
    "c84_capacity",
    "c84_search",
    "c84_order",
    "c84_descends",
    "c84_layers",
    "c84_plane",
    "c84_linear",
    "c84_cell",
    "c84_layout_partial",
    "c84_layout_refuted",
    "c84_reversed_refuted",
    "c84_limit_refuted",
    "c84_regrid_refuted",
    "c84_full_refuted",
    "c84_vertical_refuted"
   ],
   "note": "Inputs (c84_input), the cells of a point (c84_points, c84_number, c84_capacity), what a cell offers (c84_cell), the search and its independence of the distribution (c84_search, c84_order, c84_descends), layers (c84_layers), reconstructed planes (c84_plane), linear interpolation (c84_linear), places (c84_layout_partial: one point or one instance). Refuted: several points and instances are mixed up (c84_layout_refuted); a plane whose end is before its start, as in the manual, finds nothing (c84_reversed_refuted); points over the limit per cell, and points of cells that became coarser, are lost (c84_limit_refuted, c84_regrid_refuted); water up to the top of the domain stops the listing (c84_full_refuted); an interface along the line gives the middle of the cell (c84_vertical_refuted)."
  },
  {
   "property": "C85",
   "status": "proved",
   "theorems": [
    "c85_force",
    "c85_frame",
    "c85_reads",
    "c85_nodes",
    "c85_range",
    "c85_period",
    "c85_no_jump",
    "c85_size",
    "c85_linear_profile",
    "c85_power_profile",
    "c85_constant_profile",
    "c85_density_refuted",
    "c85_decreasing_refuted",
    "c85_short_refuted",
    "c85_edge_refuted"
   ],
   "note": "The force after any history (c85_force), the frame of the box (c85_frame), reads and weights (c85_reads), the turbulence at and between the points of the file (c85_nodes, c85_range), its period and continuity (c85_period, c85_no_jump), size and direction (c85_size), mean wind (c85_linear_profile, c85_power_profile, c85_constant_profile). Refuted: the density is applied twice (c85_density_refuted); a linear profile decreasing with height is constant (c85_decreasing_refuted); files that fall short of the box are accepted and read past the end (c85_short_refuted); files with both ends of the box jump at the upper edge (c85_edge_refuted). Not modelled: reading of NetCDF, overflow of conversions to int."
  },
  {
   "property": "C86",
   "status": "partial",
   "theorems": [
    "c86_input_file",
    "c86_profile_file",
    "c86_netcdf_partial",
    "c86_waves_size",
    "c86_waves_mean",
    "c86_linear_partial",
    "c86_linear_refuted",
    "c86_energy",
    "c86_energy_file",
    "c86_file",
    "c86_above_refuted",
    "c86_netcdf_density_refuted",
    "c86_netcdf_waves_refuted",
    "c86_missing_file_refuted",
    "c86_no_boxes_refuted"
   ],
   "note": "Input file without profile (c86_input_file), profile file (c86_profile_file), NetCDF profile up to the density (c86_netcdf_partial), waves (c86_waves_size, c86_waves_mean), linear wind on domains that start at zero (c86_linear_partial), turbulence energy (c86_energy, c86_energy_file), velocities from a file (c86_file). Refuted: above the table the first temperature instead of the last (c86_above_refuted); linear wind on other domains (c86_linear_refuted); density without a value and waves that cannot be turned off with a NetCDF profile (c86_netcdf_density_refuted, c86_netcdf_waves_refuted); a wind profile without a file reads an empty table (c86_missing_file_refuted); a process without boxes does not join the filling from the coarser level (c86_no_boxes_refuted)."
  },
  {
   "property": "C87",
   "status": "partial",
   "theorems": [
    "c87_wind",
    "c87_turning",
    "c87_restart_refuted",
    "c87_profile",
    "c87_reference",
    "c87_bulk_partial",
    "c87_bulk_refuted",
    "c87_bulk_uniform",
    "c87_low_cap_refuted",
    "c87_temperature",
    "c87_temperature_above_refuted"
   ],
   "note": "Direction after every sequence of steps, profile at every height, integral of the profile over the domain (Coquelicot Riemann integral of the modelled profile), temperature. With shear the bulk velocity is met up to the part of the step below the height of the cap, and that part is shown never to vanish (c87_bulk_refuted); the mean is for a domain that starts at height zero. Refuted: turning across a restart, cap below one, temperature above the table. Missing: the coupling to HELICS, which cells of which faces are written."
  },
  {
   "property": "C88",
   "status": "partial",
   "theorems": [
    "c88_substeps",
    "c88_clocks",
    "c88_substeps_float_refuted",
    "c88_run",
    "c88_checkpoints",
    "c88_replay",
    "c88_replay_initial_refuted",
    "c88_replay_ahead_refuted",
    "c88_old_file_refuted",
    "c88_resumed_file_refuted",
    "c88_restart_partial",
    "c88_restart_refuted",
    "c88_restart_checkpoints",
    "c88_duration",
    "c88_duration_both",
    "c88_duration_refuted",
    "c88_density",
    "c88_blade_width",
    "c88_tower_width",
    "c88_nacelle",
    "c88_parts",
    "c88_blade_velocities_refuted",
    "c88_exchange",
    "c88_rotor_frame",
    "c88_relative_refuted",
    "c88_relative_range_refuted"
   ],
   "note": "For any external solver: sub-steps (c88_substeps, c88_clocks), clean runs (c88_run), checkpoints (c88_checkpoints, c88_restart_checkpoints), replay when the initial solution uses the velocities of the first step (c88_replay), what goes on after a restart (c88_restart_partial), duration and density, widths, nacelle, parts, exchange, frame of the rotor. Refuted: exact multiples after rounding, initial solution of a replay, the extra step after a replay, old and resumed files, the state after a restart, the duration for a run that ends at a step, blade velocities, relative velocities and their range. Missing: the Kynema interface, single precision of the exchanged numbers, the lifting-line correction itself (C77)."
  },
  {
   "property": "C89",
   "status": "partial",
   "theorems": [
    "c89_sphere",
    "c89_cylinder",
    "c89_cylinder_height_refuted",
    "c89_box",
    "c89_box_outside_partial",
    "c89_box_planes_refuted",
    "c89_union",
    "c89_nodes",
    "c89_velocity_partial",
    "c89_last_body_refuted",
    "c89_short_velocity_refuted",
    "c89_normal",
    "c89_vortex",
    "c89_vortex_planes_refuted",
    "c89_handed",
    "c89_after_solve_refuted",
    "c89_regrid_refuted",
    "c89_regrid_nodes_refuted"
   ],
   "note": "Signed distance of spheres and cylinders (c89_sphere, c89_cylinder) and inside boxes (c89_box), bounds outside boxes (c89_box_outside_partial), all bodies (c89_union), nodes (c89_nodes), velocities for bodies with one velocity (c89_velocity_partial) and over every history without a new level (c89_handed), normals, manufactured solution. Refuted: height of cylinders, planes of boxes (level set and manufactured solution), several velocities, fewer than three numbers, velocity after the solve, bodies and mask after a change of the mesh. Missing: the gradient (C33), forces and outputs (the code has none)."
  },
  {
   "property": "C90",
   "status": "partial",
   "theorems": [
    "c90_vortex",
    "c90_vortex_density_refuted",
    "c90_spiral",
    "c90_spiral_floor_refuted",
    "c90_spiral_density_refuted",
    "c90_lid",
    "c90_lid_force",
    "c90_lid_force_refuted",
    "c90_taylor_green",
    "c90_taylor_green_repeats",
    "c90_taylor_green_refuted",
    "c90_dipole",
    "c90_channel_waves",
    "c90_channel_waves_fit",
    "c90_wall_distance",
    "c90_wall_distance_refuted",
    "c90_channel_law",
    "c90_channel",
    "c90_channel_floor_refuted",
    "c90_eddy_profile_partial",
    "c90_eddy_profile_refuted",
    "c90_patch",
    "c90_patch_faces",
    "c90_patch_faces_refuted",
    "c90_patch_returns",
    "c90_disk_turns",
    "c90_disk_shape",
    "c90_start_density",
    "c90_square",
    "c90_narrow_square_refuted",
    "c90_gauss",
    "c90_gauss2",
    "c90_packet_weights",
    "c90_packet_partial",
    "c90_advected",
    "c90_norm_counted",
    "c90_norm_domain_partial",
    "c90_norm_mapped_refuted",
    "c90_norm_levels"
   ],
   "note": "Proved: the vortex with its pressure gradient, the spiral with the Coriolis force, the lid-driven flow with its body force and the laminar channel solve the equations of motion wherever and whenever; the vortices, the dipole, the patch and the waves of the channel are without divergence; the patch returns, the disk turns; square and Gaussian pulses are set to their averages; norms are zero exactly for the exact solution and give a uniform deviation. Refuted and stated as such: vortex and spiral with a density other than one, spiral and channel over a floor that is not at zero, the force of the lid-driven flow after a regrid or restart, the Taylor-Green vortex in a box that is not square, the eddy-viscosity profile with the eddy viscosity of the model, the face velocities of the patch in cells that are not cubes, a square pulse narrower than a cell, the norm of a mapped mesh, the wall distance in a channel not between zero and two. Partial: the average of a packet is proved for polynomials up to degree three (the rule of three points with rounded nodes); the eddy-viscosity profile is shown to balance with half of the eddy viscosity; norms over the domain when the counted cells fill it."
  },
  {
   "property": "C91",
   "status": "partial",
   "theorems": [
    "c91_dam_partial",
    "c91_dam_outside",
    "c91_dam_refuted",
    "c91_dam_shift_refuted",
    "c91_dam_edge_refuted",
    "c91_density",
    "c91_drop",
    "c91_drop_share",
    "c91_tank_surface",
    "c91_tank_pressure",
    "c91_tank_balance",
    "c91_wave_surface",
    "c91_wave_flow",
    "c91_wave_speed_partial",
    "c91_wave_level_refuted",
    "c91_wave_gravity_refuted",
    "c91_layers",
    "c91_layers_interface",
    "c91_layers_refuted",
    "c91_bubble",
    "c91_scalar",
    "c91_ring_divergence",
    "c91_ring_rotation",
    "c91_ring_sense_refuted",
    "c91_ring_azimuth",
    "c91_rings_circulation",
    "c91_fat_circulation_refuted",
    "c91_fat_core",
    "c91_rings_mirror",
    "c91_rings_phases_refuted",
    "c91_rings_waves"
   ],
   "note": "Proved: the dam at the origin and everywhere outside of it, densities, the momentum of the drop, the surface and the hydrostatic pressure of the tank, wave length, mean level and irrotational water of the wave, layers, bubble, scalar turned with the disk, velocities of the rings without divergence at the nodes for every potential, rotation of these velocities, circulation of the two rings. Refuted and stated as such: a dam that does not stand at the origin has air inside (the level set is measured from the origin there), its level set beyond the edge, a wave over another level than zero or with another gravity than 9.81, the interface of the layers in a domain that does not contain one half, the sense of rotation of the rings, the circulation of the fat ring (less than half of what is asked for), unchecked numbers of phases. Missing: the linear solve for the potential, the conversion of the level set into a volume fraction."
  },
  {
   "property": "C92",
   "status": "partial",
   "theorems": [
    "c92_friction_unique",
    "c92_step_fixed",
    "c92_search_descends",
    "c92_search_settled",
    "c92_search",
    "c92_search_stops_refuted",
    "c92_search_unsettled_refuted",
    "c92_search_number_refuted",
    "c92_height",
    "c92_height_refuted",
    "c92_centred_channel_refuted",
    "c92_balance",
    "c92_no_force_refuted",
    "c92_stress_loglaw",
    "c92_stress_schumann",
    "c92_walls_hold_back",
    "c92_constant_floor",
    "c92_constant_lid_refuted",
    "c92_constant_direction_refuted",
    "c92_at_dx",
    "c92_at_dx_between",
    "c92_at_dx_nearest_refuted",
    "c92_at_dx_boxes_refuted",
    "c92_waves",
    "c92_waves_number_refuted"
   ],
   "note": "Proved: uniqueness of the friction velocity, fixed points and monotone descent of the search from every start on the growing branch, accuracy once settled, what the search returns, heights for a floor at zero on level 0, stress along the velocity, mean of the Schumann stress, both walls of the log law, interpolation, stress of the waves. Refuted: the run is stopped exactly if the search ends at the twenty-fifth step, and an unsettled search is used (c92_search_stops_refuted, c92_search_unsettled_refuted); no number without a body force or for a floor below zero; the height is a coordinate and that of level 0 on every level; the balance needs a channel of height 2; with the constant stress the lid drives the fluid and the stress is along x for every force; the nearest cell, other boxes, and crests of waves. Reals; NaN and infinities are one value. The planar mean speed is an input."
  },
  {
   "property": "C93",
   "status": "partial",
   "theorems": [
    "c93_air",
    "c93_slope",
    "c93_settled_balance",
    "c93_settled_floor",
    "c93_one_density",
    "c93_one_floor_density",
    "c93_column_floor",
    "c93_column",
    "c93_search",
    "c93_search_stops",
    "c93_search_keeps",
    "c93_top_pressure_refuted",
    "c93_floor_pressure_refuted",
    "c93_node_pressure",
    "c93_levels_refuted",
    "c93_default_pressure_refuted",
    "c93_rest"
   ],
   "note": "Proved: the equation of state against the ideal gas and the definition of the potential temperature, its derivative, balance exactly where nothing is left to change, uniqueness of the balanced density, for every column found falling densities and balance of neighbours to the tolerance, what the search returns and when the run stops, rest under gravity. Refuted: the uppermost nodes have zero reference pressure and every node holds the pressure of half a cell above (c93_top_pressure_refuted, c93_floor_pressure_refuted, c93_node_pressure); the run stops unless every level the mesh may have exists (c93_levels_refuted); the default bottom pressure is not the documented one. Reals; NaN is a separate value. That ten changes suffice is not claimed."
  },
  {
   "property": "C94",
   "status": "partial",
   "theorems": [
    "c94_level",
    "c94_no_level",
    "c94_box",
    "c94_made",
    "c94_tolerance_refuted",
    "c94_new_mesh_refuted",
    "c94_meshes",
    "c94_one_field",
    "c94_no_real_fields",
    "c94_fields_refuted",
    "c94_unwritten_refuted",
    "c94_int_over_real_refuted"
   ],
   "note": "Proved: level, refusal, cells and region of the box, outputs that can be made are made, every mesh of a run, components for one real field and for any integer and derived fields without real ones. Refuted: with two or more real fields the first components are those of the last field under the names of the first and the rest is never written (c94_fields_refuted, c94_unwritten_refuted); integer fields are written over real ones (c94_int_over_real_refuted); the tolerance is absolute (c94_tolerance_refuted); a mesh without the cells stops the run (c94_new_mesh_refuted). Chunks and the file format are not modelled."
  },
  {
   "property": "C95",
   "status": "partial",
   "theorems": [
    "c95_sides",
    "c95_velocity",
    "c95_vof",
    "c95_density",
    "c95_density_refuted",
    "c95_elsewhere",
    "c95_inside",
    "c95_planes",
    "c95_face",
    "c95_other_faces",
    "c95_ghost_face",
    "c95_ghost_face_refuted",
    "c95_last_face_refuted",
    "c95_times",
    "c95_advection_refuted",
    "c95_iteration_refuted",
    "c95_sibling"
   ],
   "note": "Proved: values of the cells one step outside, of the boundary faces and of the faces beyond; nothing else changes; the exact time of the waves at every fill of every run. Refuted: the advection of every step is given the waves of its end instead of half way (c95_advection_refuted); a repeated iteration gives the old velocity the waves of the end (c95_iteration_refuted); the density is that of the mixture only if the condition gave the density of the gas (c95_density_refuted); the face beyond a high side takes the second cell outside (c95_ghost_face_refuted); the last face along a side gets no waves (c95_last_face_refuted). Prescribed velocities, initial iterations, method of lines and overset runs are not modelled."
  },
  {
   "property": "C96",
   "status": "partial",
   "theorems": [
    "c96_when",
    "c96_never",
    "c96_zero_refuted",
    "c96_format_refuted",
    "c96_time_refuted",
    "c96_zi_refuted",
    "c96_zi_gpu",
    "c96_zi_differ",
    "c96_wstar",
    "c96_stress",
    "c96_heat",
    "c96_budget",
    "c96_budget_refuted",
    "c96_file",
    "c96_buoyancy_refuted",
    "c96_ksgs_refuted",
    "c96_averages",
    "c96_averages_refuted"
   ],
   "note": "Proved: steps and formats of the output, the height of the inversion with a GPU for every way to share out the columns, the convective velocity, stresses and heat flux, the residual of the budget, contents of the file but for the two variables below, same averages on all processes without the budget. Refuted: without a GPU the height of the inversion is half the number of cells along x times the cell height, whatever the temperature (c96_zi_refuted, c96_zi_differ); the buoyancy in the file is the dissipation, so the written budget does not close (c96_buoyancy_refuted, c96_budget_refuted); the subgrid energy is averaged and never written (c96_ksgs_refuted); with the budget one process enters four averages no other takes part in (c96_averages_refuted); frequency zero divides by zero; another format name stops the run at the first output; text profiles bear the time of the beginning of the step. Plane averages and moments themselves are the subject of other properties; the file format is not modelled."
  },
  {
   "property": "C97",
   "status": "partial",
   "theorems": [
    "c97_target",
    "c97_between",
    "c97_init_refuted",
    "c97_init_one_refuted",
    "c97_any_step",
    "c97_restart",
    "c97_restart_end_refuted",
    "c97_processes",
    "c97_processes_refuted"
   ],
   "note": "Proved: a closed form of the target after every run whose steps are no longer than those of the file, from any first step, over and over at the end of the file; from the first step of the file it is the linear interpolation up to rounding, with steps of any length and after a restart up to the tolerance; all processes that interpolate read the same step. Refuted: from a later step than the second the target is beyond the later wave, never between the two (c97_init_refuted), from the second step it is off by the difference over the rounding unit (c97_init_one_refuted), since the time of the earlier data is not shifted by the start; a restart after the end of the file begins with its first step (c97_restart_end_refuted); a process without waves undoes the new beginning of the others (c97_processes_refuted). The library that reads the file is not in the repository: its time2step is taken to be the first step at or after a time, as in the unit test. Transforms, space and levels are not modelled."
  },
  {
   "property": "C98",
   "status": "partial",
   "theorems": [
    "c98_file",
    "c98_header_refuted",
    "c98_density",
    "c98_cells",
    "c98_column",
    "c98_top_refuted",
    "c98_laimax_one_refuted",
    "c98_floor_refuted",
    "c98_type_refuted"
   ],
   "note": "Proved for every history, mesh and division into boxes: drag and number of each cell (own cells and ghost cells that belong to another box of the level), the reading of the rows, the shape and the integral of the profile, and the column of a uniform tree. Refuted: a cell centre exactly at the top of a tree of the second type has no number for its drag (c98_top_refuted); neither has any cell if the largest density is at the top (c98_laimax_one_refuted); the height is a coordinate, so a domain whose bottom is not at zero changes the leaf area (c98_floor_refuted); an unknown type gets no drag and no message (c98_type_refuted); a word in the file ends the reading without a message (c98_header_refuted). Reals in place of floating point; the integral is that of the trapezoidal rule in the code, not the exact one; conversions to int are assumed to fit."
  },
  {
   "property": "C99",
   "status": "partial",
   "theorems": [
    "c99_keys",
    "c99_one_fluid",
    "c99_two_fluids",
    "c99_effective",
    "c99_buoyancy",
    "c99_buoyancy_field",
    "c99_unset",
    "c99_unset_refuted",
    "c99_zero_refuted",
    "c99_ghost_refuted"
   ],
   "note": "Proved for every input and cell: where each value comes from, the laminar fields of one and of two fluids with their ghost cells, the effective values, buoyancy in air and in water, the stop of a run with buoyancy and no reference temperature. Refuted: the turbulence models and the boundary layer code take minus one for a missing reference temperature, so that a stable layer counts as unstable (c99_unset_refuted); an expansion coefficient of zero or less is replaced by one over the reference temperature (c99_zero_refuted); the ghost cells of the expansion coefficient are never written (c99_ghost_refuted). Reals; a Prandtl, Schmidt number or reference temperature of zero, which the program accepts, is a division by zero that is not modelled."
  },
  {
   "property": "C100",
   "status": "partial",
   "theorems": [
    "c100_scalar",
    "c100_vector_get",
    "c100_vector_query_partial",
    "c100_mixed_refuted",
    "c100_turbine_partial",
    "c100_box",
    "c100_fllc_disk",
    "c100_fllc_disk_refuted"
   ],
   "note": "Proved for every pair of sections: single entries, required lists, optional lists whose own entry is not shorter than the common one, the turbine read (an equivalence), its box, the refusal of the correction for a disk whose kind is in its own section. Refuted: an own list shorter than the common one is completed from the common one, so that one number over three is accepted as a vector (c100_mixed_refuted); a disk whose kind is in the common section passes the check (c100_fllc_disk_refuted). That the library does not shorten a list it reads into is taken from AMReX and not proved."
  },
  {
   "property": "C101",
   "status": "partial",
   "theorems": [
    "c101_source",
    "c101_tower_refuted",
    "c101_weight",
    "c101_unit_spacing",
    "c101_gap_refuted",
    "c101_spill_refuted",
    "c101_one_point_refuted",
    "c101_tiles",
    "c101_tiles_refuted"
   ],
   "note": "Proved for every turbine and cell: what the source adds up to, the weights, the sum of the radial weights for a spacing of one, and independence of the tiling for cells in the box of the turbine. Refuted: tower and hub force are added once per blade (c101_tower_refuted); the radial half width is the square of the spacing, so that below one half there is no force midway between two points (c101_gap_refuted) and above one it reaches further than the neighbours (c101_spill_refuted); one point per blade (c101_one_point_refuted); cells outside the box get the force or not by their tile (c101_tiles_refuted). Reals."
  },
  {
   "property": "C102",
   "status": "partial",
   "theorems": [
    "c102_options",
    "c102_settings",
    "c102_bottom",
    "c102_name_refuted",
    "c102_bottom_maxiter_refuted",
    "c102_defaults_refuted",
    "c102_nodal"
   ],
   "note": "Proved for every input: the options as a function of the two sections (an equivalence), every value the solver is told, the bottom solver of each recognised name, exactly when the run stops, the nodal projection. Refuted: the documented names bicgstab and petsc, and misspelt names, are passed over silently (c102_name_refuted); the iterations of the bottom solver are read and never used (c102_bottom_maxiter_refuted); the values a run starts from are not the documented ones (c102_defaults_refuted). Reals; what AMReX does with the settings is not modelled."
  },
  {
   "property": "C103",
   "status": "partial",
   "theorems": [
    "c103_mark",
    "c103_ghost",
    "c103_mask",
    "c103_range",
    "c103_kept",
    "c103_fringe_refuted"
   ],
   "note": "Proved for every list of declarations, mesh and history: the value of every cell after a step, the default threshold, the stop for too many ghost cells, values between zero and one, marks stay where transport leaves them. Refuted: cells next to the mesh of a coupled code are never marked, and a run with only that code warns that it is not in use, because the integer mask is looked for among the real fields (c103_fringe_refuted). Transport and regridding are arbitrary functions; reals."
  },
  {
   "property": "C104",
   "status": "proved",
   "theorems": [
    "c104_rate",
    "c104_frame",
    "c104_model"
   ],
   "note": "Rate given without roots and with uniqueness, after every history. Between a mesh change and the end of the same step the rate is whatever the mesh change left, which the property does not speak about. Positive coefficient and energy of zero or more are hypotheses; reals."
  },
  {
   "property": "C105",
   "status": "partial",
   "theorems": [
    "c105_linear",
    "c105_stokes_partial",
    "c105_current_refuted",
    "c105_iterations_refuted",
    "c105_start_linear",
    "c105_start_stokes",
    "c105_stokes_beach_refuted",
    "c105_ghost_refuted",
    "c105_height"
   ],
   "note": "Proved as equivalences: which inputs are accepted and what they mean, for linear and Stokes waves; start equals target at time zero for cells of the domain near the water. The length of a Stokes wave computed from a period is the model's iteration (c105_stokes_partial; what it satisfies is in C50). Refuted: a negative current with Stokes waves is accepted, the beach then drives to it while the waves and the start have none (c105_current_refuted, c105_stokes_beach_refuted); a negative limit of iterations gives the length of deep water without an error (c105_iterations_refuted); ghost cells left of the domain start from another state than their target (c105_ghost_refuted). Lists that are present but empty are excluded; reals."
  },
  {
   "property": "C106",
   "status": "partial",
   "theorems": [
    "c106_direction",
    "c106_short_way",
    "c106_scan",
    "c106_length",
    "c106_pointing",
    "c106_clock",
    "c106_interval_refuted",
    "c106_hub_start_refuted",
    "c106_hub_refuted",
    "c106_points",
    "c106_buffer_refuted",
    "c106_adaptive_refuted"
   ],
   "note": "Proved: direction, short way, one unbroken scan over all outputs, length of the beams, clock never more than a sampling time behind or a step ahead when every step is an output, even division and numbering of points. Refuted: with an output at the start every beam leaves from where the hub was one step earlier (c106_hub_start_refuted), without one the way of the hub is halved within each step (c106_hub_refuted); with outputs further apart than steps the scan falls behind without limit (c106_interval_refuted); a step with more samples than the first writes behind the end of the buffer (c106_buffer_refuted); a run whose step follows the flow has no line at the start and reads one (c106_adaptive_refuted). Reals; the pose of the hub is an input; the interpolation of angles between poses is proved only for the short way, not against a rotating hub."
  },
  {
   "property": "C107",
   "status": "partial",
   "theorems": [
    "c107_message",
    "c107_extra_refuted",
    "c107_accepted",
    "c107_delay_refuted",
    "c107_compass",
    "c107_told",
    "c107_told_refuted",
    "c107_power",
    "c107_collected",
    "c107_no_deadlock",
    "c107_self_send_refuted",
    "c107_waiting_sends"
   ],
   "note": "Proved: what a fitting message sets, exactly which messages are taken, compass directions, direction told up to full turns, power, collection for all orders of buffered sends without deadlock, and sends that wait when the process that talks computes no turbine. Refuted: a message for one turbine more is taken with all values shifted (c107_extra_refuted); a command steers only the next step and the first message none (c107_delay_refuted); directions from 0 to 90 are told with 360 added (c107_told_refuted); sends that wait for their receiver never end when the process that talks computes a turbine (c107_self_send_refuted). The external library, the text that is sent and the reading of one number (an argument) are not modelled; that all processes get the same command rests on the broadcast."
  },
  {
   "property": "C108",
   "status": "partial",
   "theorems": [
    "c108_patches",
    "c108_solution",
    "c108_regrid_refuted",
    "c108_mask",
    "c108_take_back"
   ],
   "note": "Proved: the table of patches with its sizes, per-process numbers and the order of blocks; gather and scatter of the solution for distinct variables; the mask after an update and after the start. Refuted: a rebuilt mesh outside an update dereferences a null pointer (c108_regrid_refuted), for every history of calls. One place of each field is followed; ghost cells, copies between host and device and the library itself are not modelled."
  },
  {
   "property": "C109",
   "status": "partial",
   "theorems": [
    "c109_components",
    "c109_centre",
    "c109_linear_taken",
    "c109_linear",
    "c109_linear_reversed_refuted",
    "c109_power",
    "c109_vortex",
    "c109_vortex_moves",
    "c109_vortex_centre_refuted",
    "c109_vortex_taken",
    "c109_start_refuted",
    "c109_layers",
    "c109_layers_vertical_refuted",
    "c109_short_refuted",
    "c109_const",
    "c109_const_mixed_refuted"
   ],
   "note": "Proved: components, places, the linear profile with start below stop, the power law, the vortex and its motion, the layers, precedence of constant values, and exactly which inputs of the linear profile are taken. Refuted: a start at or above the stop gives a jump or no number (c109_linear_reversed_refuted); a cell at the centre of the vortex gets no number (c109_vortex_centre_refuted); the default start does not follow the given radius (c109_start_refuted); the vertical velocity of a layer is ignored (c109_layers_vertical_refuted); short lists are taken with zeros (c109_short_refuted); a short constant is mixed with the general one and a right one may be refused (c109_const_mixed_refuted). The power law needs a positive reference height and a velocity that is not zero. The manual gives 0 for the default of its upper cutoff, the code has 100, which is what is modelled. User-written profiles are not modelled."
  },
  {
   "property": "C110",
   "status": "partial",
   "theorems": [
    "c110_where",
    "c110_terrain",
    "c110_often",
    "c110_missing_refuted",
    "c110_short",
    "c110_zero_refuted",
    "c110_level_refuted"
   ],
   "note": "Proved: in which steps, where and by how much the source changes, for every draw; the terrain; the number of perturbed steps of a run. Refuted: without an end of the box the run goes on until the first perturbed step and reads beyond an empty vector (c110_missing_refuted); zero steps between perturbations divide by zero (c110_zero_refuted); the input start_level has no effect (c110_level_refuted). The generator of random numbers and the test of the box, which is in AMReX, are taken by their documented effect."
  },
  {
   "property": "C111",
   "status": "partial",
   "theorems": [
    "c111_operator",
    "c111_tensor",
    "c111_implicit",
    "c111_unit_density",
    "c111_density_refuted",
    "c111_steady_refuted",
    "c111_second_stage",
    "c111_corrector",
    "c111_faces_refuted"
   ],
   "note": "Proved: the balance with the tensor operator, the implicit step with every operator, equality of all operators at density one, the second stages, the choice from the options. Refuted for the scalar and the segregated operator at any density but one: the old viscous force is divided by the density once too often in explicit and Crank-Nicolson steps (c111_density_refuted), so that a steady flow balances (1 + 1/density)/2 of it (c111_steady_refuted), and the face velocities of Godunov feel it divided twice (c111_faces_refuted). The operator is an argument; one component on one level."
  },
  {
   "property": "C112",
   "status": "proved",
   "theorems": [
    "c112_points",
    "c112_all_points",
    "c112_arrays",
    "c112_inflow",
    "c112_orientation",
    "c112_rotation",
    "c112_steps",
    "c112_not_converged",
    "c112_start",
    "c112_section",
    "c112_section_positive",
    "c112_hub",
    "c112_grids",
    "c112_counts",
    "c112_default_step",
    "c112_units"
   ],
   "note": "For every number of bodies and nodes: numbering of the points, arrays to and from the solver, axes after the exchange between processes (with C88), order of the calls in a step, energy of sections and of the hub with its generator, refused tables and counts, default step, units. The solver, its stiffness matrices, the tower, the files and the controller library are not modelled; float arrays hold exact reals."
  }
 ]
}