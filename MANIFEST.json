{
 "claims": [
  {
   "property": "C01",
   "status": "proved",
   "theorems": [
    "C01_same_request_same_id",
    "C01_ids_identify_labels",
    "C01_ids_dense",
    "C01_refused_iff",
    "C01_no_undefined_behaviour",
    "C01_refused_leaves_no_trace",
    "C01_lookup_stable",
    "C01_unknown_label_rejected",
    "C01_unknown_id_rejected"
   ],
   "note": "Registry histories of arbitrary length."
  },
  {
   "property": "C02",
   "status": "proved",
   "theorems": [
    "C02_update_local",
    "C02_update_other_manager",
    "C02_update_globals",
    "C02_history_local",
    "C02_history_global",
    "C02_history_single_step_local",
    "C02_history_single_step_global",
    "C02_last_write_becomes_N",
    "C02_allocated_fields_readable"
   ],
   "note": "Refinement to a two-box reference for local, bond and global fields over arbitrary histories of several managers; handles kept across an update are not modelled."
  },
  {
   "property": "C03",
   "status": "proved",
   "theorems": [
    "C03_copy_by_global_id",
    "C03_refused_iff",
    "C03_never_undefined",
    "C03_copy_state",
    "C03_copy_manager",
    "C03_manager_refused"
   ],
   "note": "Multivector and state copy; the files of restarts are the subject of C74."
  },
  {
   "property": "C04",
   "status": "proved",
   "theorems": [
    "C04_block_describes_same_bonds",
    "C04_blocks_partition_points"
   ],
   "note": "Owned, overlap, bond and neighbour maps of BlockBase, and the partition of the points; block ids as integers."
  },
  {
   "property": "C05",
   "status": "partial",
   "theorems": [
    "C05_point_gets_sum_of_held_values",
    "C05_total_is_preserved",
    "C05_import_gives_owner_value",
    "C05_evaluations_do_not_accumulate",
    "C05_nox_multiphysics_accumulates",
    "C05_nox_multiphysics_refuted"
   ],
   "note": "Proved for all blocks, processors and commutative additions (gather, totals, import, repeated evaluations). REFUTED for the multiphysics branch of the NOX residual, which never zeroes the force vector (exact characterisation proved)."
  },
  {
   "property": "C06",
   "status": "proved",
   "theorems": [
    "C06_broken_stays_broken_binary64",
    "C06_breaks_iff_exceeded_binary64",
    "C06_exceeds_means_overstretched",
    "C06_damage_is_fraction_broken",
    "C06_damage_in_unit_interval",
    "C06_damage_never_decreases",
    "C06_tentative_evaluations_leave_no_trace",
    "C06_steps_are_defined"
   ],
   "note": "Bond part in binary64 and in the reals; fraction/range/monotonicity of the damage in the reals."
  },
  {
   "property": "C07",
   "status": "partial",
   "theorems": [
    "C07_user_model_remembers_every_second_step",
    "C07_user_model_irreversible_refuted",
    "C07_interface_model_irreversible_refuted",
    "C07_initial_evaluation_lost_refuted"
   ],
   "note": "REFUTED for the user-defined model (exact characterisation proved), the interface-aware model and the initial evaluation of an explicit run."
  },
  {
   "property": "C08",
   "status": "partial",
   "theorems": [
    "C08_correspondence_refuted",
    "C08_correspondence_force_refuted",
    "C08_coupled_broken_bond_is_force_free",
    "C08_coupled_cut_off_point_is_untouched",
    "C08_lps_broken_bond_is_force_free",
    "C08_bond_based_broken_bond_is_force_free",
    "C08_viscoelastic_broken_bond_is_force_free",
    "C08_elastic_plastic_broken_bond_is_force_free",
    "C08_hardening_broken_bond_is_force_free",
    "C08_linear_lps_broken_bond_is_force_free",
    "C08_lps_cut_off_point_is_untouched",
    "C08_bond_based_cut_off_point_is_untouched",
    "C08_viscoelastic_cut_off_point_is_untouched",
    "C08_elastic_plastic_cut_off_point_is_untouched",
    "C08_hardening_cut_off_point_is_untouched",
    "C08_lps_ignores_broken_bonds",
    "C08_bond_based_ignores_broken_bonds",
    "C08_viscoelastic_ignores_broken_bonds",
    "C08_elastic_plastic_ignores_broken_bonds",
    "C08_hardening_ignores_broken_bonds",
    "C08_dilatation_ignores_broken_bonds",
    "C08_coincident_ends_binary64_refuted"
   ],
   "note": "Proved in the reals for all materials (force of a broken bond, cut-off points, independence of relative motion, dilatation). REFUTED in binary64 when the deformed ends of the broken bond coincide: NaN (C08_coincident_ends_binary64_refuted). REFUTED for the correspondence materials: bond damage has no effect on them (C08_correspondence_refuted)."
  },
  {
   "property": "C09",
   "status": "partial",
   "theorems": [
    "C09_correspondence_momentum",
    "C09_coupled_momentum",
    "C09_poisson_momentum",
    "C09_lps_momentum",
    "C09_bond_based_momentum",
    "C09_viscoelastic_momentum",
    "C09_elastic_plastic_momentum",
    "C09_hardening_momentum",
    "C09_partial_volume_momentum_when_balanced",
    "C09_partial_volume_momentum_refuted"
   ],
   "note": "Proved in the reals for LPS, bond-based, viscoelastic, elastic-plastic, hardening, linearised, fluid-coupled and vector Poisson kernels; for partial volumes under the balance condition. REFUTED for arbitrary partial volumes. Also the correspondence materials with any stress update, hourglass force included."
  },
  {
   "property": "C10",
   "status": "proved",
   "theorems": [
    "C10_correspondence_moment",
    "C10_coupled_moment",
    "C10_lps_moment",
    "C10_bond_based_moment",
    "C10_viscoelastic_moment",
    "C10_elastic_plastic_moment",
    "C10_hardening_moment",
    "C10_linear_lps_moment_about_reference",
    "C10_stress_update_moment"
   ],
   "note": "Real arithmetic; linearised solid about the reference positions. Correspondence materials: for symmetric stresses. The elastic, J2, hardening and Newton stress updates keep symmetric stresses symmetric (C10_stress_update_moment)."
  },
  {
   "property": "C11",
   "status": "proved",
   "theorems": [
    "C11_coupled_force_rotates",
    "C11_dilatation_unchanged",
    "C11_lps_force_rotates",
    "C11_bond_based_force_rotates",
    "C11_viscoelastic_force_rotates",
    "C11_elastic_plastic_force_rotates",
    "C11_hardening_force_rotates",
    "C11_rigid_motion_no_dilatation",
    "C11_lps_rigid_motion_no_force",
    "C11_bond_based_rigid_motion_no_force",
    "C11_viscoelastic_rigid_motion_no_force",
    "C11_elastic_plastic_rigid_motion_no_force",
    "C11_hardening_rigid_motion_no_force"
   ],
   "note": "Real arithmetic; dilatation, forces and plastic/viscous states of six kernels."
  },
  {
   "property": "C12",
   "status": "proved",
   "theorems": [
    "C12_weighted_volume",
    "C12_weighted_volume_nonneg",
    "C12_weighted_volume_positive",
    "C12_isotropic_expansion_dilatation",
    "C12_pressure_depends_on_bulk_modulus_only"
   ],
   "note": "Real arithmetic."
  },
  {
   "property": "C13",
   "status": "proved",
   "theorems": [
    "C13_builtin_values_in_unit_interval",
    "C13_parabolic_one_up_to_half",
    "C13_parabolic_decreases_to_zero",
    "C13_parabolic_continuous",
    "C13_gaussian_positive_and_strictly_decreasing",
    "C13_unknown_predefined_name_is_error",
    "C13_unusable_selection_is_error",
    "C13_unset_means_constant",
    "C13_last_selection_in_force"
   ],
   "note": "Over the reals (exp for the Gaussian); selection state machine included. Expressions are accepted or rejected by an arbitrary run-time compiler parameter."
  },
  {
   "property": "C14",
   "status": "proved",
   "theorems": [
    "C14_evaluation_returns_to_yield_surface",
    "C14_reevaluation_changes_nothing",
    "C14_multiplier_never_decreases",
    "C14_histories_stay_admissible"
   ],
   "note": "Over the reals. Whole evaluations and all load histories, with re-evaluation idempotent; weighted volumes of points with neighbours, shear modulus, yield stress and horizon positive, volumes non-negative."
  },
  {
   "property": "C15",
   "status": "proved",
   "theorems": [
    "C15_increment_solves_the_consistency_condition",
    "C15_consistency_condition_has_one_positive_solution",
    "C15_evaluation_returns_to_hardened_surface",
    "C15_reevaluation_changes_nothing",
    "C15_multiplier_never_decreases"
   ],
   "note": "Over the reals with exact cos, acos and cube root. Requires H>0 and n^2/(2H) below DBL_MAX (the solver's 'no root' sentinel); uniqueness of the positive root, whole evaluations and histories included."
  },
  {
   "property": "C16",
   "status": "proved",
   "theorems": [
    "C16_steps_integrate_the_standard_linear_solid_exactly",
    "C16_relaxation_exists",
    "C16_update_is_exact_for_piecewise_linear_extension",
    "C16_constant_extension_never_overshoots",
    "C16_constant_extension_converges",
    "C16_constant_extension_steps_add_up",
    "C16_no_relaxation_is_elastic"
   ],
   "note": "Over the reals with the real exponential. Exactness end to end over any list of steps of any sizes (fixed bond damage); constant-extension consequences; lambda_i=0 equals the elastic kernel with influence function 1."
  },
  {
   "property": "C17",
   "status": "partial",
   "theorems": [
    "C17_multiply",
    "C17_inverse_two_sided",
    "C17_inverse_code",
    "C17_singular_reported",
    "C17_flat_reported",
    "C17_few_neighbours_reported",
    "C17_singular_stops",
    "C17_affine_exact",
    "C17_hourglass_zero",
    "C17_partial_stress",
    "C17_planar_binary64_refuted"
   ],
   "note": "Proved over the reals: products, two-sided inverse with code 0 and code 1 exactly for singular matrices; code of the deformation loop is 0 exactly when every shape tensor is regular (with positive weights: no neighbourhood is coplanar); affine neighbourhoods get exactly their matrix and no hourglass force; singular shape tensors stop the evaluation; partial stress is the first Piola-Kirchhoff stress. REFUTED in binary64: an exactly planar neighbourhood gets code 0 (C17_planar_binary64_refuted)."
  },
  {
   "property": "C18",
   "status": "partial",
   "theorems": [
    "C18_step_characterised",
    "C18_orthogonal_iff",
    "C18_drift_bound",
    "C18_determinant_grows",
    "C18_spin_refuted",
    "C18_spin_stress_refuted",
    "C18_rate_symmetric",
    "C18_stress_symmetric",
    "C18_stress_invariants_partial",
    "C18_pure_stretch_partial",
    "C18_singular_gradient_reported",
    "C18_singular_stretch_refuted"
   ],
   "note": "REFUTED: the square term of the rotation formula has the wrong sign, so a step leaves an orthogonal tensor orthogonal only without spin or after whole turns (C18_orthogonal_iff); under rigid spin the determinant after k steps is (5-4cos(dt|w|))^k (C18_spin_refuted) and hydrostatic stress does not stay hydrostatic (C18_spin_stress_refuted); a failed inversion of tr V I - V is not reported (C18_singular_stretch_refuted). Proved: exact characterisation of every step, drift bound, determinant never falls over any run, stretch, rate and stress stay symmetric, invariants kept if the tensor is orthogonal, singular deformation gradients reported."
  },
  {
   "property": "C19",
   "status": "proved",
   "theorems": [
    "C19_hooke",
    "C19_hooke_thermal",
    "C19_free_expansion",
    "C19_within_yield",
    "C19_reported",
    "C19_elastic",
    "C19_plastic",
    "C19_pressure",
    "C19_plastic_strain",
    "C19_symmetric",
    "C19_history",
    "C19_triaxiality"
   ],
   "note": "Real arithmetic, every stress, rate of deformation, material and number of steps: within the yield surface, on it when plastic, reported von Mises stress and triaxiality those of the returned stress, pressure elastic, plastic strain grows by sqrt(2/3) times the norm of the plastic strain increment and never decreases; Hooke's law with and without temperatures. The update of elastic_plastic_correspondence.cxx lines 437 onwards (bond-level) is not modelled."
  },
  {
   "property": "C20",
   "status": "proved",
   "theorems": [
    "C20_step_is_least_stable_step",
    "C20_step_scales_with_sqrt_density",
    "C20_integrator_step_within_every_estimate",
    "C20_integrator_step_without_factor",
    "C20_fixed_step_is_used"
   ],
   "note": "Over the reals. Estimates above the internal cap 1e50 are cut to it; a user-supplied fixed step replaces the estimate."
  },
  {
   "property": "C21",
   "status": "partial",
   "theorems": [
    "C21_plane",
    "C21_plane_crossing",
    "C21_disk",
    "C21_triangle",
    "C21_triangle_crossing",
    "C21_quad",
    "C21_quad_crossing",
    "C21_symmetric",
    "C21_neighbors",
    "C21_order",
    "C21_lists_symmetric",
    "C21_self",
    "C21_initial_damage",
    "C21_end_on_surface_refuted",
    "C21_short_bond_refuted",
    "C21_symmetric_binary64_refuted"
   ],
   "note": "Proved over the reals: exactly which bonds a rectangle, disk, triangle or plane quadrilateral cuts (tolerances 1e-14 and 1e-15 included), transversal crossings are cut, symmetry of cuts and of filtered lists, well-formed lists with kept neighbours in order, independence of filter order, points themselves, initial damage. REFUTED: a bond that merely ends on the surface is cut; a crossing bond with extent below 1e-15 (absolute) is kept; in binary64 the two ends can disagree, so that neighbour lists become unsymmetric (C21_symmetric_binary64_refuted)."
  },
  {
   "property": "C22",
   "status": "partial",
   "theorems": [
    "C22_radius",
    "C22_binary64_refuted"
   ],
   "note": "Proved over the reals for every cloud of distinct points, every result of sorting, every centre and radius: found exactly once each, and no other (C22_radius). REFUTED in binary64: points of the rounded inscribed cube are accepted although they are farther away than the radius. Clouds with coincident points have no tree (C23)."
  },
  {
   "property": "C23",
   "status": "partial",
   "theorems": [
    "C23_construction",
    "C23_coincident_refuted",
    "C23_binary64_refuted"
   ],
   "note": "Over the reals: the construction succeeds for all clouds of distinct points and writes beyond the array of nodes for EVERY cloud with two coincident points, so the statement is REFUTED for these; in binary64 also for two neighbouring numbers."
  },
  {
   "property": "C24",
   "status": "partial",
   "theorems": [
    "C24_nearest",
    "C24_empty"
   ],
   "note": "Proved over the reals for every non-empty cloud of distinct points, every result of sorting and every query. Missing: clouds with coincident points, which have no tree (C23), and rounding."
  },
  {
   "property": "C25",
   "status": "partial",
   "theorems": [
    "C25_neighbors_partial",
    "C25_uniform",
    "C25_variable_refuted",
    "C25_frame_refuted",
    "C25_empty_processor_refuted"
   ],
   "note": "REFUTED for point-dependent horizons and on boundary ties: a point is sent according to its own horizon (C25_variable_refuted), a point exactly at (greatest coordinate - horizon) does not leave its processor (C25_frame_refuted), a processor without points reads beyond an array (C25_empty_processor_refuted). Proved: exact lists for a uniform horizon when processors share no points on a cutting plane (C25_uniform), for all clouds, bisections, processor counts and message orders; for variable horizons soundness and completeness below both horizons (C25_neighbors_partial). What Zoltan computes is specified by SpecParallel.assigns/bisects."
  },
  {
   "property": "C26",
   "status": "proved",
   "theorems": [
    "C26_decode_encode",
    "C26_decode_only_encodings",
    "C26_search_list_well_formed",
    "C26_globalized_list",
    "C26_local_list_well_formed",
    "C26_rebalanced_list_well_formed",
    "C26_block_list_well_formed"
   ],
   "note": "Flat lists from the search, its localisation, block splitting and rebalancing; the 'no neighbours' placeholder included."
  },
  {
   "property": "C27",
   "status": "proved",
   "theorems": [
    "C27_shares",
    "C27_points"
   ],
   "note": "Any numbers and norm: every share is computed and the shares hold cells 0, 1, 2, ... in order, each once (C27_shares). Over the reals: points at the cell centres, equal volumes adding up to the volume of the box (C27_points). Hypothesis: the mesh is small enough for int."
  },
  {
   "property": "C28",
   "status": "partial",
   "theorems": [
    "C28_lists",
    "C28_large_refuted"
   ],
   "note": "Proved over the reals for every mesh small enough for int: lists through the pointers are exactly the other cells strictly within the horizon; no buffer is overrun for any norm (C27_shares over any numbers). REFUTED for meshes whose share exceeds INT_MAX: the size conversion is undefined."
  },
  {
   "property": "C29",
   "status": "partial",
   "theorems": [
    "C29_sum_of_contacts",
    "C29_two_points",
    "C29_momentum",
    "C29_moment",
    "C29_friction_moment_refuted",
    "C29_power",
    "C29_friction_dissipates",
    "C29_coincident_refuted",
    "C29_negative_id"
   ],
   "note": "Proved for all clouds, lists, parameters: the force on each point is the sum of the prescribed pair forces (C29_sum_of_contacts), equal and opposite (C29_two_points, C29_momentum), no moment without friction, friction dissipates. REFUTED: two coincident points make every component of their force NaN in binary64 (C29_coincident_refuted); with friction the pair forces have a moment (C29_friction_moment_refuted). Missing: a statement about rounding in general."
  },
  {
   "property": "C30",
   "status": "partial",
   "theorems": [
    "C30_bonds_kept",
    "C30_lists_partial",
    "C30_arrives",
    "C30_tie_refuted"
   ],
   "note": "REFUTED for ties: C30_lists_partial proves the lists right after any history of searches and redistributions (bonds kept by C30_bonds_kept), with points at exactly the search radius only when no two processors share a coordinate across their separating plane; C30_tie_refuted shows the points that are missed otherwise. Real arithmetic; every processor owns a point (C25_empty_processor_refuted)."
  },
  {
   "property": "C31",
   "status": "partial",
   "theorems": [
    "C31_list_partial",
    "C31_unordered",
    "C31_last_definition_refuted",
    "C31_specific_definition_refuted",
    "C31_pair_twice_refuted",
    "C31_nothing_defined",
    "C31_one_block_refuted",
    "C31_interactions_unused_refuted"
   ],
   "note": "REFUTED as stated: the kept model is the last in the order of strings, not the one defined last or most specifically (C31_last_definition_refuted, C31_specific_definition_refuted); entries for (f,g) and (g,f) are both kept (C31_pair_twice_refuted); an input that defines nothing, such as general contact with one block, is undefined behaviour (C31_nothing_defined, C31_one_block_refuted); the list is not used for the choice of models (C31_interactions_unused_refuted). Proved for all inputs: one entry per ordered pair, exactly for the defined pairs, with the greatest name (C31_list_partial); the statement holds when entries name the smaller id first and definitions agree (C31_unordered)."
  },
  {
   "property": "C32",
   "status": "partial",
   "theorems": [
    "C32_number_of_steps",
    "C32_run",
    "C32_run_succeeds",
    "C32_too_many_steps_refuted",
    "C32_final_time_binary64_refuted"
   ],
   "note": "Proved over the reals: number of steps, times, completeness and the Verlet relation between consecutive outputs for every run; success of runs. REFUTED in binary64 (C32_final_time_binary64_refuted: every run from 0 to 1.7 with step 0.1 ends beyond 1.7) and for 2^31 steps or more (undefined conversion, the check for too many steps comes after it)."
  },
  {
   "property": "C33",
   "status": "proved",
   "theorems": [
    "C33_momentum_and_centre_of_mass",
    "C33_linear_peridynamic_solid"
   ],
   "note": "Over the reals, any number of steps, any balanced evaluation (contact included), first evaluation or restart; instance for the linear peridynamic solid with any damage model."
  },
  {
   "property": "C34",
   "status": "partial",
   "theorems": [
    "C34_attempts_end",
    "C34_number_of_attempts",
    "C34_steps_without_gaps",
    "C34_schedule_kept",
    "C34_no_failures",
    "C34_reduced_steps_reach_the_end",
    "C34_final_time_refuted",
    "C34_failure_is_not_an_error_refuted",
    "C34_tolerance_refuted",
    "C34_uniform_schedule",
    "C34_uniform_schedule_binary64_refuted"
   ],
   "note": "Proved over the reals for every pattern of solver results, both subdivision modes: the loop ends, number of attempts, accepted steps contiguous and solved, schedule visited and final time exact when only the failed step is subdivided, uniform schedules. REFUTED: with 'Reduce all remaining load steps' a finished run can end beyond the final time (by less than its last step, proved); giving up returns normally instead of raising an error; residuals up to 100 times the tolerance are accepted; in binary64 a uniform schedule can end beyond the final time."
  },
  {
   "property": "C35",
   "status": "partial",
   "theorems": [
    "C35_search",
    "C35_search_binary64",
    "C35_smallest_residual",
    "C35_tried_and_finite",
    "C35_increase_near_ten_percent",
    "C35_succeeds",
    "C35_finite_step_refuted",
    "C35_multiphysics_refuted",
    "C35_ten_percent_refuted"
   ],
   "note": "Proved over the reals and, for finite doubles, in binary64 (C35_search_binary64): the returned step is the candidate with the smallest residual among those tried and finite, otherwise the increase nearest to ten percent; the search succeeds. REFUTED: when no trial is finite (or none is below 1e50) the step 1 is returned although it was tried and not finite; with multiphysics the first round evaluates every candidate at the same step 1e-4 and returns the first whatever its residual; an increase of exactly ten percent can be passed over."
  },
  {
   "property": "C36",
   "status": "partial",
   "theorems": [
    "C36_run",
    "C36_run_succeeds",
    "C36_prescribed_displacements_refuted",
    "C36_constrained_components_stay",
    "C36_body_forces_lag_refuted",
    "C36_unconverged_steps_refuted",
    "C36_fluid_residual_refuted"
   ],
   "note": "Proved over the reals for every linear solver, every number of corrections and steps: times, Newmark relations, positions, residual of the equation of motion, when a step ends, success of runs. REFUTED: prescribed displacements are never imposed (the run does not depend on the prescribed values at all; constrained components stay where they were); the body force is that of the beginning of the step; steps that do not converge are accepted; the fluid residual changes its formula after the first correction."
  },
  {
   "property": "C37",
   "status": "partial",
   "theorems": [
    "C37_allocation_succeeds",
    "C37_pattern",
    "C37_pattern_symmetric",
    "C37_pattern_diagonal",
    "C37_central_difference",
    "C37_central_difference_temperature",
    "C37_block_diagonal",
    "C37_quadratic_exact",
    "C37_elastic_central",
    "C37_elastic_derivative",
    "C37_elastic_derivative_diagonal",
    "C37_four_dofs_refuted",
    "C37_lone_point_refuted",
    "C37_plastic_block_diagonal_refuted"
   ],
   "note": "Proved for any number of processors, points and neighbours: the pattern is exactly the pairs of points that share a neighbourhood, symmetric, with every diagonal block, and assembly into it never misses an entry; finite differences give the row volume times the central difference of the total force whatever the scratch matrices held before (displacements only and temperatures only; full and block diagonal), exact for forces at most quadratic; for the elastic material the automatic differentiation matrix holds the derivatives of the assembled internal force. REFUTED: with more than three degrees of freedom per point finite differences read past the force array (C37_four_dofs_refuted); a point without neighbours stops the computation (C37_lone_point_refuted); the elastic-plastic materials ignore the request for a block diagonal matrix (C37_plastic_block_diagonal_refuted)."
  },
  {
   "property": "C38",
   "status": "partial",
   "theorems": [
    "C38_nothing_else_changes",
    "C38_initial_conditions",
    "C38_body_forces",
    "C38_application_succeeds",
    "C38_displacement_increment",
    "C38_increments_add_up",
    "C38_velocities_add_up",
    "C38_sum_from_another_start_refuted",
    "C38_prescribed_temperature",
    "C38_thermal_flux_refuted",
    "C38_numeric_value_is_not_exact_refuted",
    "C38_explicit_run_follows_the_prescription",
    "C38_explicit_run_body_forces"
   ],
   "note": "Proved over the reals for all lists of conditions and all explicit or quasi-static histories: exactly the named entries change, initial conditions, body forces and temperatures take the last applicable value, displacement increments and velocities add up to u(t)-u(t0). REFUTED: a start value that is not the resting value, thermal flux writes zero, a numeric value passes through six digits."
  },
  {
   "property": "C39",
   "status": "partial",
   "theorems": [
    "C39_residual_entries",
    "C39_rows_and_columns_one_processor_partial",
    "C39_rows_in_parallel_partial",
    "C39_columns_in_parallel_refuted",
    "C39_solve_leaves_constrained_increments_zero",
    "C39_diagonal_entry_is_not_zero"
   ],
   "note": "Residual entries proved; rows and columns proved on one processor, rows on any number; increments of constrained unknowns vanish in every solution (any number of processors). REFUTED: columns of unknowns constrained on another processor are not cleared."
  },
  {
   "property": "C40",
   "status": "partial",
   "theorems": [
    "C40_listed_nodes_in_order",
    "C40_listed_nodes",
    "C40_empty_set_refuted",
    "C40_leading_zero_refuted",
    "C40_too_large_number_refuted",
    "C40_file_of_nodes",
    "C40_stray_character_in_a_line_refuted",
    "C40_sets_of_a_processor",
    "C40_same_name_twice"
   ],
   "note": "Proved for all texts recognisable as lists (order and set), for files with comments, and for all sets of a processor. REFUTED: empty text (undefined behaviour), single word with leading zero and an 8 or 9 (taken for a file name), a number above INT_MAX (rest dropped), a stray character in a file line (rest dropped)."
  },
  {
   "property": "C41",
   "status": "partial",
   "theorems": [
    "C41_any_pair_gives_the_bulk_modulus",
    "C41_any_pair_gives_the_shear_modulus",
    "C41_independent_of_the_pair",
    "C41_other_counts_rejected",
    "C41_admissible_pairs_are_covered",
    "C41_plane_options_depend_on_the_pair_refuted"
   ],
   "note": "Proved for all admissible pairs without the plane options. REFUTED with plane stress / plane strain: the option changes the bulk modulus only when the pair is (E, nu), never the shear modulus."
  },
  {
   "property": "C42",
   "status": "proved",
   "theorems": [
    "C42_block_names_are_the_words",
    "C42_definition_in_force_is_used",
    "C42_no_definition_is_error",
    "C42_definition_in_force_is_unique",
    "C42_load_fails_only_on_malformed",
    "C42_constant_value_of_variable_horizon_refuted",
    "C42_constant_horizon_is_not_exact_refuted"
   ],
   "note": "For every printing function of numbers and every expression evaluator. Extra finding: C42_constant_value_of_variable_horizon_refuted (documented error is not raised); C42_constant_horizon_is_not_exact_refuted (a numeric horizon passes through a 16-digit text)."
  },
  {
   "property": "C43",
   "status": "partial",
   "theorems": [
    "C43_layout_is_a_bijection_after_first_initialisation_partial",
    "C43_reinitialisation_refuted",
    "C43_total_accumulates"
   ],
   "note": "Proved for the first initialisation, all 16 choices of physics. REFUTED for re-initialisation: the total accumulates (C43_reinitialisation_refuted, for all choices)."
  },
  {
   "property": "C44",
   "status": "partial",
   "theorems": [
    "C44_tetrahedron",
    "C44_tetrahedron_base_height",
    "C44_tetrahedron_has_height",
    "C44_tetrahedron_additive",
    "C44_tetrahedron_split",
    "C44_tetrahedron_translation",
    "C44_tetrahedron_stored",
    "C44_hexahedron",
    "C44_jacobian",
    "C44_hexahedron_both",
    "C44_hexahedron_both_succeeds",
    "C44_hexahedron_inverted",
    "C44_hexahedron_additive",
    "C44_hexahedron_numbering",
    "C44_mesh_volume",
    "C44_hexahedron_translation",
    "C44_hexahedron_centroid",
    "C44_parallelepiped",
    "C44_valid_hexahedron_refuted",
    "C44_flat_element_centroid_refuted"
   ],
   "note": "Proved over the reals: tetrahedron volume equals base times height over three, is additive and translation invariant; hexahedron volume equals the integral of the Jacobian of the trilinear map whenever all 24 sub-tetrahedra are not inverted, both routines agree, volumes add over cuts, renumbering and conforming meshes, exact volume and centroid of parallelepipeds, centroid in the hull of the nodes, inverted elements are rejected. REFUTED: a hexahedron with positive Jacobian everywhere can be rejected as inverted (C44_valid_hexahedron_refuted); the centroid of a flat element is NaN (C44_flat_element_centroid_refuted)."
  },
  {
   "property": "C45",
   "status": "partial",
   "theorems": [
    "C45_triangle",
    "C45_triangle_decided",
    "C45_tetrahedron",
    "C45_tetrahedron_decided",
    "C45_enclosed_in_tetrahedron_refuted",
    "C45_hexahedron",
    "C45_parallelepiped",
    "C45_enclosed_in_parallelepiped_refuted"
   ],
   "note": "Proved over the reals: triangle test right and decided up to tangency; tetrahedra of non-zero volume and parallelepipeds right for INSIDE and INTERSECTS, and for OUTSIDE unless the centre is in the element; hexahedra with proper surface triangles with respect to their surface and hull. REFUTED: every sphere enclosed in an element without reaching its surface is reported OUTSIDE. Missing: degenerate (flat) elements, OUTSIDE for non-parallelepiped hexahedra beyond the surface triangles."
  },
  {
   "property": "C46",
   "status": "partial",
   "theorems": [
    "C46_underscore_name_partial",
    "C46_dream3d_name",
    "C46_underscore_name_refuted",
    "C46_underscore_number_ignored_refuted"
   ],
   "note": "Dream3D form proved for all numbers; underscore form proved when the text has none of the letters G, R, A, I, N. REFUTED otherwise."
  },
  {
   "property": "C47",
   "status": "partial",
   "theorems": [
    "C47_written_text_is_nearest_six_digits",
    "C47_six_digit_times_are_accepted_partial",
    "C47_at_most_one_time_per_text",
    "C47_every_time_refuted"
   ],
   "note": "REFUTED for every reader (C47_every_time_refuted): the time is written with six digits and compared exactly. Proved: times that are six-digit decimals are accepted; at most one time per text is."
  },
  {
   "property": "C48",
   "status": "partial",
   "theorems": [
    "C48_kinetic_energy_is_the_sum",
    "C48_kinetic_energy_independent_of_decomposition",
    "C48_linear_momentum_is_sum_of_block_magnitudes",
    "C48_angular_momentum_is_sum_of_block_magnitudes",
    "C48_linear_momentum_one_block_partial",
    "C48_angular_momentum_one_block_partial",
    "C48_momentum_never_underestimated",
    "C48_momentum_of_several_blocks_refuted",
    "C48_block_minimum",
    "C48_block_maximum_partial",
    "C48_block_maximum_refuted",
    "C48_block_sum",
    "C48_nearest_point"
   ],
   "note": "Proved over the reals: kinetic energy for every decomposition, block minimum and sum, nearest point, momenta of a single block. REFUTED: momenta of several blocks (sum of block magnitudes, exact characterisation proved), block maximum when all values are below DBL_MIN."
  },
  {
   "property": "C49",
   "status": "partial",
   "theorems": [
    "C49_written_steps_partial",
    "C49_no_frequency_no_output",
    "C49_first_step_refuted",
    "C49_last_step_int_max_overflows"
   ],
   "note": "Proved with lower bound a-1 for all schedules and run lengths; REFUTED for the lower bound a (C49_first_step_refuted, every a); last step INT_MAX overflows."
  },
  {
   "property": "C50",
   "status": "partial",
   "theorems": [
    "C50_interpolated_until_first_error_partial",
    "C50_first_request_at_minus_one_refuted",
    "C50_refused_request_repeated_refuted"
   ],
   "note": "Proved for every request up to and including the first error, for all files and histories. REFUTED: first request at time -1, repeated request after an error (both for every file)."
  },
  {
   "property": "C51",
   "status": "partial",
   "theorems": [
    "C51_flow_conserved",
    "C51_flow_keeps_total",
    "C51_flow_uniform",
    "C51_flow_frame",
    "C51_damage_refuted",
    "C51_damage_partial",
    "C51_divergence_conserved",
    "C51_divergence_defined",
    "C51_divergence_uniform",
    "C51_hottest_cools",
    "C51_one_sided_refuted",
    "C51_coincident_stops",
    "C51_species_conserved_partial",
    "C51_species_refuted"
   ],
   "note": "Conservation proved for the fluid flow and, for mutual neighbour lists on any number of processors, for the heat flux divergence; no flux in a uniform field. REFUTED: more damage lowers the fluid flow for a positive curve parameter (C51_damage_refuted, the setting of the shipped input decks; C51_damage_partial is the true direction for two points); lists that are not mutual (C51_one_sided_refuted); species when temperatures differ (C51_species_refuted; C51_species_conserved_partial at uniform temperature). The improved quadrature weights are modelled but not covered."
  },
  {
   "property": "C52",
   "status": "proved",
   "theorems": [
    "C52_accepted_texts",
    "C52_round_trip",
    "C52_unknown_text_is_error",
    "C52_initial_conditions"
   ],
   "note": "All texts, three enumerations, initial-condition test."
  },
  {
   "property": "C53",
   "status": "partial",
   "theorems": [
    "C53_getFieldIds_default_is_empty"
   ],
   "note": "REFUTED: getFieldIds() without arguments is always empty (C53_getFieldIds_default_is_empty); allocating SCALAR and LENGTH_1 fields together is refused (Example C53_scalar_and_length1_refused)."
  },
  {
   "property": "C54",
   "status": "proved",
   "theorems": [
    "C54_von_mises_monotone",
    "C54_johnson_cook_monotone"
   ],
   "note": "Real arithmetic; the bond loops and state swaps, not the volume averages."
  },
  {
   "property": "C55",
   "status": "proved",
   "theorems": [
    "C55_angular_momentum",
    "C55_linear_peridynamic_solid"
   ],
   "note": "Over the reals, any number and size of steps, any moment-free evaluation; instance for the linear peridynamic solid."
  },
  {
   "property": "C56",
   "status": "proved",
   "theorems": [
    "C56_largest_distance",
    "C56_hull"
   ],
   "note": "Over the reals, every non-empty list of nodes."
  },
  {
   "property": "C57",
   "status": "partial",
   "theorems": [
    "C57_between_blocks",
    "C57_symmetric",
    "C57_block_numbers_refuted"
   ],
   "note": "Proved for every mesh with blocks numbered 1 to the number of blocks: lists keep exactly the neighbours of the same block in order, symmetric lists stay symmetric. REFUTED: a block number above the number of blocks (blocks 1 and 3) makes the filter read outside its table."
  },
  {
   "property": "C58",
   "status": "partial",
   "theorems": [
    "C58_distribution",
    "C58_meshes",
    "C58_empty_share_refuted",
    "C58_few_cells_refuted"
   ],
   "note": "Proved: for shares with at least one cell, every schedule and buffering, no blocking, at most 20 steps per processor, every processor returns its share, no message left; meshes with at least as many cells as processors meet this. REFUTED for every mesh with fewer cells than processors (three or more) when sends wait: processor 0 goes on sending the empty arrays to a processor that no longer receives them."
  },
  {
   "property": "C59",
   "status": "partial",
   "theorems": [
    "C59_reported",
    "C59_pressure",
    "C59_elastic",
    "C59_surface_grows",
    "C59_no_hardening",
    "C59_history_partial",
    "C59_flaw",
    "C59_first_yield_refuted",
    "C59_overshoot_refuted",
    "C59_power_law_partial",
    "C59_triaxiality_refuted"
   ],
   "note": "REFUTED: a step into the plastic range from a virgin state reports less than half of the plastic strain it made (C59_first_yield_refuted); trial stresses beyond the yield surface can be taken as elastic because the multiplier leaves out the hardening already made (C59_overshoot_refuted); the power law keeps the triaxiality of an earlier step on elastic steps (C59_triaxiality_refuted). Proved over the reals: reported von Mises stress, elastic pressure, elastic steps, the yield surface never shrinks and plastic strain never decreases over any history, exact agreement with perfect plasticity without hardening, effect of the flaw."
  },
  {
   "property": "C60",
   "status": "partial",
   "theorems": [
    "C60_elastic",
    "C60_consistent",
    "C60_returns",
    "C60_returns_soft",
    "C60_saturation_exponential",
    "C60_power_law",
    "C60_history",
    "C60_binary64_refuted"
   ],
   "note": "Proved over the reals for every concave non-decreasing law and for the two laws of the code: the return ends (slope at most 3G: for every excess up to 1e14 times the bulk modulus), on the yield surface of the new plastic strain to within 1e-16 of the bulk modulus, with the exact plastic strain, elastic pressure, direction kept; invariants over histories of any length. REFUTED in binary64: the tolerance 1e-16 K is below one unit in the last place, so the iteration can reach its limit and abort for an ordinary step (C60_binary64_refuted)."
  },
  {
   "property": "C61",
   "status": "partial",
   "theorems": [
    "C61_elastic",
    "C61_stored_values",
    "C61_stored",
    "C61_damaged",
    "C61_multiphysics",
    "C61_energy_conserved",
    "C61_nonnegative",
    "C61_zero_iff",
    "C61_rigid",
    "C61_damaged_refuted"
   ],
   "note": "Proved over the reals for every body, neighbourhood, influence function, temperature and motion: undamaged elastic bodies (C61_elastic), conservation of kinetic plus stored energy under Newton's law, sign, vanishing exactly at reference lengths, rigid motions; with broken bonds and for the multiphysics material the exact potential is the reported energy plus a named term (C61_damaged, C61_multiphysics). REFUTED: with a broken bond the reported energy itself is not the potential, for any non-zero shear modulus (C61_damaged_refuted)."
  },
  {
   "property": "C62",
   "status": "partial",
   "theorems": [
    "C62_point_values",
    "C62_global_sums",
    "C62_expansion",
    "C62_strain_energy_refuted"
   ],
   "note": "Kinetic energies, point values, global sums over blocks and processors and uniform expansion proved. REFUTED: the deviatoric extension is not squared, so for every positive shear modulus some deformed body has negative strain energy while the stored elastic energy is positive (C62_strain_energy_refuted)."
  },
  {
   "property": "C63",
   "status": "partial",
   "theorems": [
    "C63_potential",
    "C63_momentum",
    "C63_frame",
    "C63_rigid",
    "C63_dilatation",
    "C63_expansion",
    "C63_energy_axes",
    "C63_energy_shear",
    "C63_broken_bonds_refuted"
   ],
   "note": "Proved over the reals for every cloud, neighbourhood, pair of initial influence functions and every solver whose answers solve the equations: potential, momentum, moment, frame indifference, rigid motion, first order dilatation, exact uniform expansion, second order energy for axis stretches in any combination and for each coordinate shear. Not claimed: energy of shear combined with other strains, which the multipliers do not control. REFUTED: bond damage is never read, so a body with all bonds broken still has forces (C63_broken_bonds_refuted)."
  },
  {
   "property": "C64",
   "status": "partial",
   "theorems": [
    "C64_total",
    "C64_energy",
    "C64_hardening_response",
    "C64_hardening_refuted",
    "C64_isotropy_refuted",
    "C64_translation",
    "C64_lonely_refuted",
    "C64_pair_refuted"
   ],
   "note": "Proved over the reals for every body, influence function and owned point whose bonds some coordinate shear stretches unevenly: classical energy in the worst of the three shears, no more in the others, positive factor, independent of the scratch coordinates and of translations (C64_total, C64_energy, C64_translation); elastic steps of the hardening solid scale their shear stiffness by its factors (C64_hardening_response). REFUTED: the hardening solid, which applies the correction by default, is given the inverse factors, so the energy is 2 mu gamma^2 / f^2 (C64_hardening_refuted); the factor depends on the orientation of the body, by more than twelve orders of magnitude for six neighbours along the axes (C64_isotropy_refuted); points without neighbours get NaN and isolated pairs infinite factors and NaN forces at rest (C64_lonely_refuted, C64_pair_refuted)."
  },
  {
   "property": "C65",
   "status": "partial",
   "theorems": [
    "C65_reported",
    "C65_pressure",
    "C65_elastic",
    "C65_symmetric",
    "C65_history",
    "C65_points",
    "C65_plastic_strain",
    "C65_root_partial",
    "C65_first_yield_refuted",
    "C65_large_step_refuted",
    "C65_consistency_refuted"
   ],
   "note": "Proved over the reals: reported stress, pressure, elastic steps, symmetry, direction and bounds of the plastic strain, histories (any power function); for steps below 100 per cent strain the bisection ends within 1e-6 of a root of its equation and the von Mises stress is the smaller of the elastic one and the flow stress of the multiplier (C65_root_partial). Missing from it because false: REFUTED that the step ends on the flow surface of its own plastic strain (C65_consistency_refuted, more than 5 per cent off); the stored plastic strain is less than half of the true one for every first yield (C65_first_yield_refuted); every step whose elastic deviator exceeds 2G plus the flow radius at 100 per cent strain loses its deviatoric stress after 100000 iterations (C65_large_step_refuted)."
  },
  {
   "property": "C66",
   "status": "partial",
   "theorems": [
    "C66_value",
    "C66_cube_partial",
    "C66_box_refuted",
    "C66_small_refuted",
    "C66_accepted_partial",
    "C66_collapsed_refuted",
    "C66_output_partial"
   ],
   "note": "Proved for cubes (element, block and global value, C66_cube_partial, C66_output_partial). REFUTED for other boxes: the test for cubes compares with 1.0e12, so every box is accepted and the value is off by the factor side_x^2/(side_y side_z) (C66_box_refuted); boxes with a side below 1e-10 are refused as non-rectangular (C66_small_refuted); collapsed elements are accepted (C66_collapsed_refuted)."
  },
  {
   "property": "C67",
   "status": "partial",
   "theorems": [
    "C67_sum",
    "C67_minimum",
    "C67_maximum_partial",
    "C67_maximum_refuted",
    "C67_empty"
   ],
   "note": "Sum, minimum and empty sets proved. REFUTED for the maximum: it starts from DBL_MIN, the smallest positive number, so a set of negative values reports DBL_MIN (C67_maximum_refuted); right as soon as one value reaches DBL_MIN (C67_maximum_partial)."
  },
  {
   "property": "C68",
   "status": "partial",
   "theorems": [
    "C68_number_of_neighbors",
    "C68_neighborhood_volume",
    "C68_partial_volume",
    "C68_radius",
    "C68_force",
    "C68_force_mismatch",
    "C68_acceleration_value",
    "C68_acceleration_partial",
    "C68_acceleration_refuted",
    "C68_gradient_partial",
    "C68_gradient_refuted"
   ],
   "note": "Proved for neighbour counts, neighbourhood volumes, radius and forces. REFUTED for Acceleration where body forces act (C68_acceleration_refuted: the body force is missing; equal elsewhere, C68_acceleration_partial) and for Deformation_Gradient after a block with a singular shape tensor (C68_gradient_refuted: all later blocks keep old values; right if there is none, C68_gradient_partial)."
  },
  {
   "property": "C69",
   "status": "proved",
   "theorems": [
    "C69_bonds",
    "C69_picture",
    "C69_points"
   ],
   "note": "For all blocks whose arrays fit and in which a global id has one position; the numbers are tokens, their decimal representation (six digits) is outside the model."
  },
  {
   "property": "C70",
   "status": "proved",
   "theorems": [
    "C70_points",
    "C70_blocks",
    "C70_unnamed_block",
    "C70_names",
    "C70_node_sets",
    "C70_refused",
    "C70_sphere_attributes_refuted"
   ],
   "note": "For all well-formed files: node numbers exist, every element has a number, spheres have two attributes; C70_sphere_attributes_refuted shows that the last condition is not checked by the code. One processor; the calls of the Exodus library are the data of the model."
  },
  {
   "property": "C71",
   "status": "partial",
   "theorems": [
    "C71_hexahedra",
    "C71_conforming",
    "C71_others",
    "C71_quadratic_refuted",
    "C71_mixed_refuted",
    "C71_mixed_false_refuted",
    "C71_wedge_refuted",
    "C71_three_corners_refuted"
   ],
   "note": "Proved for hexahedra and for elements of one other kind sharing at most four nodes. REFUTED for quadratic elements (C71_quadratic_refuted: array overrun), meshes of several kinds (C71_mixed_refuted, C71_mixed_false_refuted), wedges written as hexahedra (C71_wedge_refuted) and hexahedra with exactly three common corners (C71_three_corners_refuted)."
  },
  {
   "property": "C72",
   "status": "partial",
   "theorems": [
    "C72_late",
    "C72_current_refuted",
    "C72_blocks",
    "C72_numbers_refuted"
   ],
   "note": "REFUTED: every output holds the apertures of the output before it, the first one zeros (C72_late, C72_current_refuted); nodes and order are proved (C72_blocks), the element numbers in the file are the interface numbers only if no triangle precedes a quadrilateral (C72_numbers_refuted)."
  },
  {
   "property": "C73",
   "status": "partial",
   "theorems": [
    "C73_dimension",
    "C73_radius_suffices",
    "C73_lists",
    "C73_neighbours",
    "C73_options",
    "C73_options_refuted",
    "C73_interfaces_refuted"
   ],
   "note": "Neighbours, lists and radius proved for hexahedra with proper faces (the only elements the code accepts here). REFUTED for combinations of options: C73_options_refuted (Construct Interfaces = false forgets the stored mesh), C73_interfaces_refuted (interfaces in parallel use stale local numbers)."
  },
  {
   "property": "C74",
   "status": "partial",
   "theorems": [
    "C74_resume",
    "C74_session",
    "C74_other_times",
    "C74_numbers",
    "C74_names",
    "C74_writes",
    "C74_temperature_refuted",
    "C74_crash_refuted",
    "C74_missing_refuted",
    "C74_long_names_refuted",
    "C74_silent_refuted",
    "C74_continue",
    "C74_clock_refuted"
   ],
   "note": "Proved for complete histories of sessions: names, order, the state found and used (C74_resume, C74_session) and, over the reals, that an explicit run stopped after a whole number of steps and resumed gives the states of a single run (C74_continue). REFUTED: the clock of a run that ends between steps (C74_clock_refuted), temperatures and flux divergences (C74_temperature_refuted), crashes while writing (C74_crash_refuted, C74_silent_refuted), missing files (C74_missing_refuted) and long block names (C74_long_names_refuted). The text of numbers in the matrix files is taken as read back exactly; the text of the time is C47."
  },
  {
   "property": "C75",
   "status": "partial",
   "theorems": [
    "C75_readable",
    "C75_points",
    "C75_blocks",
    "C75_sets",
    "C75_sets_refuted",
    "C75_missing_refuted",
    "C75_twice_refuted",
    "C75_succeeds",
    "C75_one_number_refuted",
    "C75_scale_refuted",
    "C75_again_refuted",
    "C75_layers"
   ],
   "note": "Points, volumes, blocks, layers and, if the elements are numbered in order, node sets are proved (C75_points, C75_blocks, C75_sets, C75_layers), and that the result can be read (C75_readable). REFUTED: volumes are not scaled (C75_scale_refuted), node sets of meshes numbered otherwise name other points or make the file unreadable (C75_sets_refuted, C75_missing_refuted), a second conversion with layers is refused (C75_twice_refuted, C75_again_refuted), blocks with equal numbers in their names stop the converter (C75_one_number_refuted)."
  },
  {
   "property": "C76",
   "status": "partial",
   "theorems": [
    "C76_counts",
    "C76_shares",
    "C76_points",
    "C76_centre_refuted",
    "C76_lists",
    "C76_complete",
    "C76_missed_refuted",
    "C76_repeated_refuted"
   ],
   "note": "Numbers of rays and layers (C76_counts), shares (C76_shares), points about the axis x = y = 0, sector volumes and their sum (C76_points) are proved over the reals, and which cells the lists hold (C76_lists); lists are complete when the innermost cells beyond the rays looked at are no nearer than the horizon (C76_complete). REFUTED: the ring centre is ignored (C76_centre_refuted); thick tubes miss neighbours at the inner radius (C76_missed_refuted); with few rays neighbours are listed twice (C76_repeated_refuted)."
  },
  {
   "property": "C77",
   "status": "partial",
   "theorems": [
    "C77_exponents",
    "C77_moments",
    "C77_margin",
    "C77_fresh",
    "C77_reported",
    "C77_gradient",
    "C77_affine",
    "C77_runs",
    "C77_bond_level",
    "C77_bond_affine",
    "C77_broken",
    "C77_trial_refuted",
    "C77_flat_refuted",
    "C77_order_refuted"
   ],
   "note": "Proved over the reals for every neighbourhood, order and history in which changes of bond damage show in the point damage (which bonds that break for good give, C77_reported): the monomials (C77_exponents), the moments of the weights (C77_moments), exact gradients of polynomials and affine maps (C77_gradient, C77_affine) where no singular value is thrown away (a condition on the positions alone, C77_margin, for any decomposition that is one), the bond level gradient (C77_bond_level, C77_bond_affine), broken bonds (C77_broken), no failure on data of the right length (C77_runs). REFUTED: a bond broken in one trial of a step and whole in the next keeps no weight (C77_trial_refuted); flat neighbourhoods are accepted and give the unit tensor for every deformation across the plane (C77_flat_refuted); an order below one is accepted and gives the unit tensor always (C77_order_refuted)."
  },
  {
   "property": "C78",
   "status": "partial",
   "theorems": [
    "C78_momentum",
    "C78_power",
    "C78_moment",
    "C78_history",
    "C78_elastic",
    "C78_weights",
    "C78_uniform",
    "C78_intact",
    "C78_broken",
    "C78_stops",
    "C78_output_refuted"
   ],
   "note": "REFUTED: the gradients of the points, computed for output only, stop the run as well (C78_output_refuted: a cube with one corner pressed in, every bond gradient regular). Proved over the reals: C78_momentum for every evaluation; C78_power and C78_moment for one evaluation with two-sided data; C78_history for any number of accepted steps from initialize, in which the two-sidedness and the exactness of the weights are shown to last (C78_weights); C78_elastic instantiates the stress update; C78_uniform gives the power with the present over the initial weighted volume, which initialize alone computes, C78_intact the undamaged case; C78_broken; C78_stops says exactly when a run stops. All points of the force evaluation are on one processor."
  },
  {
   "property": "C79",
   "status": "partial",
   "theorems": [
    "C79_law",
    "C79_hooke",
    "C79_kept",
    "C79_spin",
    "C79_spin_refuted"
   ],
   "note": "REFUTED for the rotation: after n steps of a body that only spins, the determinant of the rotation of every bond with influence is (1+excess)^n, with excess 0 only where cos(dt|w|) = 1 (C79_spin_refuted), the sign error of C18 in the copy for bonds. Proved over the reals: C79_law for every bond with influence, any stress update and any kinematics, with the characterisation of stretch and rotation; C79_hooke; C79_kept; C79_spin: the unrotated stress does not change, whatever the present deformation."
  },
  {
   "property": "C80",
   "status": "partial",
   "theorems": [
    "C80_symmetric",
    "C80_history",
    "C80_power",
    "C80_law",
    "C80_updates",
    "C80_yield_perfect",
    "C80_yield_power",
    "C80_yield_satexp",
    "C80_laws_rest",
    "C80_kept",
    "C80_spin",
    "C80_triaxiality",
    "C80_runs",
    "C80_triaxiality_refuted"
   ],
   "note": "REFUTED for the triaxiality of the saturation exponential material: it is computed from the stress field before the new stress is stored, hence 0 in the first step whatever the load, and of the stress of two steps before afterwards (C80_triaxiality_refuted, for all inputs, and for a pulled cube with every bond at 1/2). Proved over the reals: balance over histories and power for any stress update that keeps symmetry (C80_history, C80_power, C80_law) and that the three materials do (C80_symmetric); yield and growth of the plastic strain over histories (C80_yield_perfect, C80_yield_power, C80_yield_satexp); the stress updates themselves, with elastic range, return and plastic strain (C80_updates); rest (C80_laws_rest, C80_kept, C80_spin); triaxiality of the other two (C80_triaxiality); the perfectly plastic material finishes whenever the gradients are regular (C80_runs)."
  },
  {
   "property": "C81",
   "status": "partial",
   "theorems": [
    "C81_grid",
    "C81_quadrature",
    "C81_bracket",
    "C81_bounds",
    "C81_whole",
    "C81_none",
    "C81_diagonal",
    "C81_symmetric",
    "C81_moved",
    "C81_monotone",
    "C81_bonds",
    "C81_ring_grid",
    "C81_ring_cell",
    "C81_ring_bounds",
    "C81_ring_whole",
    "C81_ring_diagonal",
    "C81_ring_centre",
    "C81_ring_refuted"
   ],
   "note": "REFUTED for cylinders away from the z axis: the parts of the cell are laid around the z axis, so that for every ring far from it a cell wholly within the horizon counts nothing (C81_ring_refuted; C81_ring_centre says what is computed instead). Proved over the reals: for bricks the parts counted (C81_quadrature), limits (C81_bracket, C81_bounds, C81_whole, C81_none), the diagonal (C81_diagonal), symmetry, translation and horizon (C81_symmetric, C81_moved, C81_monotone); for rings the exact volume of a cell with any centre (C81_ring_cell), bounds (C81_ring_bounds) and, around the z axis, whole and empty cells and the diagonal (C81_ring_whole, C81_ring_diagonal); order of the list (C81_bonds) and the cells of the grid (C81_grid, C81_ring_grid)."
  },
  {
   "property": "C82",
   "status": "partial",
   "theorems": [
    "C82_built",
    "C82_once",
    "C82_errors",
    "C82_once_refuted",
    "C82_constructed",
    "C82_fields",
    "C82_run"
   ],
   "note": "REFUTED for a class named both with spaces and with underscores in output lists: two objects are built (C82_once_refuted, for every class). Proved: which objects are built with and without parameters (C82_built); once each and in the order of the parameter lists if no two variables differ in spaces only (C82_once); errors, both ways (C82_errors); any constructors, which may fail (C82_constructed); fields and services (C82_fields); one run of each object in order (C82_run)."
  },
  {
   "property": "C83",
   "status": "partial",
   "theorems": [
    "C83_same",
    "C83_defined",
    "C83_expansion",
    "C83_deviatoric_refuted"
   ],
   "note": "REFUTED for an influence function other than that of the program: the deviatoric extension takes its dilatation with the default one and is not zero (C83_deviatoric_refuted, for all functions that differ at the neighbour). No caller in the sources passes one. Proved: agreement with the ordinary functions (C83_same, for any arithmetic); defined exactly if every neighbour has a volume (C83_defined); dilatation with any influence function, and no deviatoric extension with that of the program (C83_expansion, over the reals)."
  },
  {
   "property": "C84",
   "status": "partial",
   "theorems": [
    "C84_dilatation",
    "C84_superposition",
    "C84_law",
    "C84_rigid",
    "C84_expansion",
    "C84_broken_dilatation",
    "C84_broken_refuted"
   ],
   "note": "REFUTED for broken bonds with the improved quadrature: the half of the force that comes from the neighbour is added without the bond damage, so that two points whose only bond is broken still pull at each other (C84_broken_refuted, for all moduli, weights and stretches). Proved over the reals: superposition (C84_dilatation, C84_superposition), the force as the sum over the bonds of the force states of both ends (C84_law), rigid motion (C84_rigid), expansion (C84_expansion), dilatation blind to broken bonds (C84_broken_dilatation). With cell volumes a broken bond is force free: C08_linear_lps_broken_bond_is_force_free. Superposition and rigid motion of forces are stated for the improved quadrature only."
  }
 ]
}