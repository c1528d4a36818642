{
 "claims": [
  {
   "property": "C01",
   "status": "proved",
   "theorems": [
    "C01_last_write_wins",
    "C01_last_write_wins_from_any_model"
   ],
   "note": "From an empty model and from any model with at most one boundary condition per kind and elevation."
  },
  {
   "property": "C02",
   "status": "proved",
   "theorems": [
    "C02_setter_frame",
    "C02_axes_not_given_are_kept"
   ],
   "note": "Positional frame, both directions, from an arbitrary prior list."
  },
  {
   "property": "C03",
   "status": "proved",
   "theorems": [
    "C03_histories_never_conflict",
    "C03_histories_keep_unambiguous_models_valid"
   ],
   "note": "Invariant over arbitrary call histories."
  },
  {
   "property": "C04",
   "status": "proved",
   "theorems": [
    "C04_rejected_iff_conflict",
    "C04_tables"
   ],
   "note": "Both directions, for the check and for each of the three tables that run it."
  },
  {
   "property": "C05",
   "status": "proved",
   "theorems": [
    "C05_value_at_each_node",
    "C05_one_bc_touches_one_node",
    "C05_at_most_one_node"
   ],
   "note": "Exact value of every entry of the table for any list of boundary conditions."
  },
  {
   "property": "C06",
   "status": "partial",
   "theorems": [
    "C06_whole_loads_reach_their_node",
    "C06_load_truncated_refuted",
    "C06_truncation_bound"
   ],
   "note": "The full property is false of the code: the force columns are int64, so fractional loads are truncated (C06_load_truncated_refuted). Proved: whole-number loads reach their node unchanged, and the loss is below one unit."
  },
  {
   "property": "C07",
   "status": "partial",
   "theorems": [
    "C07_nonzero_displacement_supported",
    "C07_fixation_supported",
    "C07_zero_displacement_refuted"
   ],
   "note": "False of the code for a prescribed value of zero (refuted for every mesh and node). Proved for non-zero values and for supports."
  },
  {
   "property": "C08",
   "status": "partial",
   "theorems": [
    "C08_isolation_without_sharing",
    "C08_shared_object_refuted"
   ],
   "note": "False when one boundary-condition object is passed to two models (refuted). Proved for models without common objects, for every interleaving."
  },
  {
   "property": "C09",
   "status": "proved",
   "theorems": [
    "C09_accepted_iff_tiling",
    "C09_accepted_pile_fills_its_interval",
    "C09_rejection_is_value_error",
    "C09_constructed_sections_are_proper"
   ],
   "note": "Both directions, for any list of sections in any order."
  },
  {
   "property": "C10",
   "status": "proved",
   "theorems": [
    "C10_order_independent"
   ],
   "note": "Any permutation of sections with distinct tops gives the same pile."
  },
  {
   "property": "C11",
   "status": "partial",
   "theorems": [
    "C11_length_is_sum",
    "C11_volume_is_sum",
    "C11_positive",
    "C11_tip",
    "C11_tubular",
    "C11_negative_weight_refuted"
   ],
   "note": "False for walls thicker than half the diameter, which CircularPileSection accepts (refuted). Proved for proper sections."
  },
  {
   "property": "C12",
   "status": "partial",
   "theorems": [
    "C12_acceptance",
    "C12_area_balance",
    "C12_nonnegative_if_wall_within_radius",
    "C12_solid_without_thickness",
    "C12_volumes",
    "C12_ring_relations",
    "C12_wall_thicker_than_radius_refuted"
   ],
   "note": "False for walls thicker than half the diameter (refuted). Proved for proper sections."
  },
  {
   "property": "C13",
   "status": "partial",
   "theorems": [
    "C13_accepted_profile_is_a_stack",
    "C13_accepted_iff_stack",
    "C13_order_independent",
    "C13_order_dependence_refuted",
    "C13_constructed_layers_are_proper"
   ],
   "note": "Acceptance characterised exactly. Independence of the order of layers is false for layers with equal tops thinner than the 1 mm tolerance (refuted); proved for distinct tops."
  },
  {
   "property": "C14",
   "status": "partial",
   "theorems": [
    "C14_exact_when_layers_meet",
    "C14_drift_is_sum_of_gaps",
    "C14_drift_bound",
    "C14_exact_bottom_refuted"
   ],
   "note": "Exact bottom is false because of the 1 mm tolerance (refuted); the accumulated drift is bounded."
  },
  {
   "property": "C15",
   "status": "proved",
   "theorems": [
    "C15_mesh_terminates",
    "C15_mesh_strictly_descending",
    "C15_mesh_contains_requested"
   ],
   "note": "Includes termination of the subdivision loop for coarseness > 0."
  },
  {
   "property": "C16",
   "status": "proved",
   "theorems": [
    "C16_spacing_within_coarseness",
    "C16_rounded_elements_within_coarseness",
    "C16_no_needless_refinement",
    "C16_primary_elevations"
   ],
   "note": "Upper bound before and after rounding, and no needless refinement."
  },
  {
   "property": "C17",
   "status": "partial",
   "theorems": [
    "C17_elements_join_consecutive_nodes",
    "C17_heights_sum_to_mesh",
    "C17_positive_length_partial",
    "C17_positive_length_refuted"
   ],
   "note": "Positive length is false when two requested elevations round to the same value (refuted); proved when they are more than 1e-4 apart and coarseness >= 0.01."
  },
  {
   "property": "C18",
   "status": "partial",
   "theorems": [
    "C18_mesh_covers_pile_partial",
    "C18_soil_above_pile_refuted",
    "C18_x2mesh_below_tip_refuted"
   ],
   "note": "False when the ground is above the pile head or an x2mesh elevation is outside the pile (refuted); proved otherwise."
  },
  {
   "property": "C19",
   "status": "partial",
   "theorems": [
    "C19_own_or_adjacent_partial",
    "C19_top_section_partial",
    "C19_uniform_property_partial",
    "C19_lower_sections_refuted",
    "C19_wrong_section_refuted"
   ],
   "note": "False for every section but the top one (refuted, in general for a stable sort). Proved for any ascending row order: the row is the section's own or the one directly above; the top section is right; a property on which adjacent sections agree is right."
  },
  {
   "property": "C20",
   "status": "proved",
   "theorems": [
    "C20_stress_is_overburden",
    "C20_overburden_grows_with_depth",
    "C20_zero_at_ground",
    "C20_needs_ground_node",
    "C20_ground_off_grid_refuted",
    "C20_water_off_mesh_refuted"
   ],
   "note": "Proved end to end from the section list, layers, x2mesh and coarseness, when requested elevations have four decimals and the water line is a mesh elevation or outside the mesh. Outside those hypotheses it is false (two refutations)."
  },
  {
   "property": "C21",
   "status": "proved",
   "theorems": [
    "C21_value_of_enclosing_section",
    "C21_nan_outside",
    "C21_last_object_wins",
    "C21_pile_weight",
    "C21_entrapped_weight",
    "C21_head_off_grid_refuted"
   ],
   "note": "Lookup for any object list; total pile weight and entrapped soil weight for any number of sections, layers and elements. False when the pile head has more than four decimals (refuted)."
  },
  {
   "property": "C22",
   "status": "partial",
   "theorems": [
    "C22_only_first_layer_partial",
    "C22_single_layer_partial",
    "C22_two_layers_refuted",
    "C22_dry_layer_refuted"
   ],
   "note": "False for more than one layer and for a dry layer containing the tip (refuted). Proved for the topmost layer."
  },
  {
   "property": "C23",
   "status": "partial",
   "theorems": [
    "C23_beam_element_partial",
    "C23_cantilever_partial",
    "C23_negative_energy_refuted"
   ],
   "note": "Proved for Poisson's ratio >= -0.75 (and cantilever flexibility). False for accepted ratios near -1: the shear coefficient of a thick tube turns negative and so does the energy (refuted)."
  },
  {
   "property": "C24",
   "status": "partial",
   "theorems": [
    "C24_euler_bernoulli_is_bending_energy",
    "C24_timoshenko_never_stiffer_partial",
    "C24_softer_with_shear_flexibility",
    "C24_shear_coefficient_positive_partial",
    "C24_shear_coefficient_negative_refuted",
    "C24_noncircular_timoshenko_rejected"
   ],
   "note": "Same restriction on Poisson's ratio; refuted below it."
  },
  {
   "property": "C25",
   "status": "proved",
   "theorems": [
    "C25_primitive",
    "C25_deflection_interpolates",
    "C25_consistent",
    "C25_symmetric",
    "C25_psd",
    "C25_definite",
    "C25_translation"
   ],
   "note": "Bilinear form equal to the integral for all displacements; symmetric, positive definite, total reaction."
  },
  {
   "property": "C26",
   "status": "proved",
   "theorems": [
    "C26_consistent",
    "C26_symmetric",
    "C26_psd",
    "C26_translation"
   ],
   "note": "As C25 for the axial matrix."
  },
  {
   "property": "C27",
   "status": "partial",
   "theorems": [
    "C27_symmetric_translation_free_partial",
    "C27_euler_bernoulli_partial",
    "C27_timoshenko_iff_refuted",
    "C27_timoshenko_rotation_refuted",
    "C27_timoshenko_pushes_refuted"
   ],
   "note": "Euler-Bernoulli: proved, with the mean of the two spring stiffnesses. Timoshenko: false because the area variable is overwritten (refuted, with an exact criterion); for thick piles the matrix is even indefinite, springs then push instead of resisting (C27_timoshenko_pushes_refuted)."
  },
  {
   "property": "C28",
   "status": "proved",
   "theorems": [
    "C28_symmetric",
    "C28_work_is_sum_over_elements",
    "C28_semidefinite",
    "C28_rigid_motion_is_free",
    "C28_base_spring_energy"
   ],
   "note": "Any number of elements; energy/work additivity, symmetry, semidefiniteness, rigid motions, base spring energy."
  },
  {
   "property": "C29",
   "status": "proved",
   "theorems": [
    "C29_solver_exists",
    "C29_equilibrium_and_supports",
    "C29_solves_iff_stable",
    "C29_beam"
   ],
   "note": "For every solver meeting the contract (solution exact, fails iff singular), which Gaussian elimination is proved to meet; success iff the supported structure is stable."
  },
  {
   "property": "C30",
   "status": "proved",
   "theorems": [
    "C30_superposition",
    "C30_unique",
    "C30_reciprocity",
    "C30_internal_forces_linear"
   ],
   "note": "Superposition incl. reactions and internal forces, uniqueness, reciprocity."
  },
  {
   "property": "C31",
   "status": "proved",
   "theorems": [
    "C31_node_balance",
    "C31_force_table_is_method_of_sections",
    "C31_force_table_any_displacement",
    "C31_global_equilibrium"
   ],
   "note": "Node balance and method of sections for N, V, M at both ends of each element; overall equilibrium. Poisson's ratio at least -0.75 for the pile element version."
  },
  {
   "property": "C32",
   "status": "partial",
   "theorems": [
    "C32_own_node_partial",
    "C32_last_spring_refuted",
    "C32_agrees_iff",
    "C32_table_elevation_refuted"
   ],
   "note": "False for the last spring of every pile, which uses the node above (refuted for every mesh); same for the elevation in the mobilisation table. Proved for all other springs, with the exact condition under which the two doubling functions agree."
  },
  {
   "property": "C33",
   "status": "proved",
   "theorems": [
    "C33_curve_function",
    "C33_py_secant",
    "C33_base_secant",
    "C33_rotational_secant",
    "C33_initial",
    "C33_tangent",
    "C33_nonnegative"
   ],
   "note": "Lateral, base and rotational springs against a relational polyline; initial and tangent stiffness too. Curves start at the origin with increasing displacements and non-decreasing resistance."
  },
  {
   "property": "C34",
   "status": "proved",
   "theorems": [
    "C34_origin_index",
    "C34_shaft_secant",
    "C34_tip_secant",
    "C34_initial",
    "C34_tangent"
   ],
   "note": "Shaft and tip springs, both signs, secant, initial and tangent; the index of the origin is right exactly for 2m+1 points with m odd, which covers the 15 points used."
  },
  {
   "property": "C35",
   "status": "partial",
   "theorems": [
    "C35_terminates",
    "C35_equilibrium_partial",
    "C35_unsupported_equilibrium_partial",
    "C35_reactions_partial",
    "C35_linear_range",
    "C35_few_passes_refuted"
   ],
   "note": "Number of passes bounded; for max_iter >= 99 a result that is not NaN satisfies equilibrium within the tolerance and reactions solve the secant system; linear range proved to end at pass 2. Refuted for fewer passes: the last displacements are returned unconverged."
  },
  {
   "property": "C36",
   "status": "proved",
   "theorems": [
    "C36_prescribed_every_pass",
    "C36_prescribed_result"
   ],
   "note": "Every pass and the result keep the prescribed displacements, for every solver that solves."
  },
  {
   "property": "C37",
   "status": "partial",
   "theorems": [
    "C37_unloaded_nan_refuted",
    "C37_few_passes_partial"
   ],
   "note": "Refuted: an unloaded model ends in NaN after 100 passes (0 < 0 never holds); with fewer than 100 passes zero displacements are returned."
  },
  {
   "property": "C38",
   "status": "partial",
   "theorems": [
    "C38_effect_of_calls_partial",
    "C38_unchanged_iff_unit_mesh",
    "C38_second_reading_refuted"
   ],
   "note": "Exact effect of every sequence of getter calls: resistances are multiplied by the tributary length once per call; unchanged iff the loaded nodes have unit tributary length. The full property is refuted by reading one table twice."
  },
  {
   "property": "C39",
   "status": "partial",
   "theorems": [
    "C39_lumped_values_partial",
    "C39_uniform_total_refuted",
    "C39_distributed_values_partial",
    "C39_rotational_values_partial"
   ],
   "note": "Values of the first lumped and distributed tables proved for every mesh; the claim that the lumped table sums to the total soil resistance is refuted."
  },
  {
   "property": "C40",
   "status": "partial",
   "theorems": [
    "C40_reported_partial",
    "C40_displacement_reported_refuted"
   ],
   "note": "Refuted: the reported maximum is the larger of last resistance and last displacement. Proved: exact value, mobilised value on the curve and never above the reported maximum."
  },
  {
   "property": "C41",
   "status": "proved",
   "theorems": [
    "C41_reaction_table",
    "C41_shown_iff",
    "C41_masked_value"
   ],
   "note": "Exact characterisation of the table."
  },
  {
   "property": "C42",
   "status": "partial",
   "theorems": [
    "C42_conic_curve",
    "C42_no_division_by_zero",
    "C42_division_by_zero_refuted",
    "C42_origin_refuted"
   ],
   "note": "Proved for all parameters with x_u >= 0.01, 0 <= n < 1, y_u > 0 and no sample on the abscissa where the code divides by zero. Refuted below x_u = 0.01 (full resistance at zero displacement) and when a sample falls on the singular abscissa (ZeroDivisionError)."
  },
  {
   "property": "C43",
   "status": "partial",
   "theorems": [
    "C43_py_bothkennar",
    "C43_py_cowden",
    "C43_py_dunkirk_partial",
    "C43_mt_bothkennar",
    "C43_mt_cowden_partial",
    "C43_mt_dunkirk_partial",
    "C43_Hb_bothkennar",
    "C43_Hb_cowden",
    "C43_Hb_dunkirk",
    "C43_Mb_bothkennar",
    "C43_Mb_cowden",
    "C43_Mb_dunkirk",
    "C43_mt_cowden_origin_refuted",
    "C43_mt_dunkirk_origin_refuted",
    "C43_py_dunkirk_singular_refuted"
   ],
   "note": "All twelve curves over the documented slenderness and depth range with the documented ultimate values, curvature and stiffness. Missing: Cowden m-t beyond 5.89 diameters and Dunkirk m-t with normalised moment under 0.17 (refuted: moment at zero rotation), Dunkirk p-y needs no singular sample (refuted otherwise)."
  },
  {
   "property": "C44",
   "status": "partial",
   "theorems": [
    "C44_cowden_hooks",
    "C44_dunkirk_hooks",
    "C44_clamps_inactive_in_range",
    "C44_dunkirk_py_length_refuted",
    "C44_dunkirk_mt_sign_refuted",
    "C44_hooks_always_admissible",
    "C44_hook_displacement_refuted"
   ],
   "note": "Equality for all inputs where the clamps are inactive, shown inactive over the documented range. Refuted: fewer than 8 points (Dunkirk p-y) and negative p (Dunkirk m-t). The hook for the Dunkirk base shear displacement is not clamped."
  },
  {
   "property": "C45",
   "status": "proved",
   "theorems": [
    "C45_api_sand_curve",
    "C45_no_stress_no_resistance",
    "C45_negative_modulus_rejected",
    "C45_ultimate_positive",
    "C45_kallehave_at_surface_refuted",
    "C45_kallehave_laws",
    "C45_sorensen_law",
    "C45_kallehave_stiffness_refuted"
   ],
   "note": "For all friction angles in (0,90), stresses, depths, diameters, moduli, extents and lengths. At zero stress all resistances are zero; negative modulus rejected. Remark: the Kallehave modulus is 0 at the surface, which api_sand reads as not given. Laws of the Kallehave and Sorensen moduli proved; the published Kallehave stiffness is refuted away from 2.5 m depth."
  },
  {
   "property": "C46",
   "status": "partial",
   "theorems": [
    "C46_api_clay_partial",
    "C46_matlock_partial",
    "C46_modified_matlock_partial",
    "C46_ultimate",
    "C46_cyclic_softens",
    "C46_extent_refuted"
   ],
   "note": "Proved for the three curves, every parameter set and every random draw: length, origin, sorted abscissae, ordinates are the normalised Matlock curve, bounds, monotonicity of static curves, residual of cyclic ones. Refuted: the requested extent is exceeded for every draw when it is below 15 y50 (API clay); it is honoured from 15 y50 (API clay) or 8 y50 (Matlock)."
  },
  {
   "property": "C47",
   "status": "partial",
   "theorems": [
    "C47_reese_partial",
    "C47_monotone_refuted",
    "C47_rqd_clamped"
   ],
   "note": "Proved for every rock, width, depth, constant and length: length, origin, sorted abscissae, bounds, Pmax reached at 16 yrm, RQD clamped, and drops bounded by the factor q^0.00025. Monotone when q >= 1. Refuted in general: the exponent 1.333 in place of 4/3 makes the third point lower than the second on a stated range."
  },
  {
   "property": "C48",
   "status": "partial",
   "theorems": [
    "C48_clay_backbone",
    "C48_clay_curve",
    "C48_sand_backbone",
    "C48_sand_displacement_refuted",
    "C48_sand_curve",
    "C48_kraft",
    "C48_kraft_length_refuted",
    "C48_kraft_length_partial"
   ],
   "note": "Clay and sand backbones and curves: length, order, table points, both branches, residual tails, extreme values, for every draw and every argsort. Kraft: sorted, both branches, residual. Refuted: the sand curve needs 25.4 mm where the standard has 2.54 mm, and the Kraft curve is two points short for every second odd length."
  },
  {
   "property": "C49",
   "status": "proved",
   "theorems": [
    "C49_tip_backbone",
    "C49_tip_curve",
    "C49_api_curves"
   ],
   "note": "Zero in tension, non-decreasing, full bearing from 10 % of the diameter on, for every draw, argsort, length, diameter and capacity."
  },
  {
   "property": "C50",
   "status": "partial",
   "theorems": [
    "C50_sand_friction",
    "C50_end_bearing",
    "C50_clay_friction_partial",
    "C50_clay_zero_stress_refuted",
    "C50_sand_limits"
   ],
   "note": "Sand friction and end bearing: limits and monotonicity in all parameters, and the exact values, linear between the tabulated angles (C50_sand_limits). Clay friction: equal to the API geometric-mean form, limit, monotone, for positive stress. Refuted at zero stress, which is treated as 0.001 kPa."
  },
  {
   "property": "C51",
   "status": "partial",
   "theorems": [
    "C51_sand_perimeter_partial",
    "C51_clay_perimeter_partial",
    "C51_plugged_tension_refuted",
    "C51_plugged_tension_clay_refuted",
    "C51_alpha_limit_refuted",
    "C51_callable_multiplier_refuted",
    "C51_tip_area",
    "C51_tip_area_sand",
    "C51_unit_tip_resistance",
    "C51_unit_friction_of_sand"
   ],
   "note": "Compression perimeter, tip area, unit tip resistance and the unit friction of sand, and tension perimeter without tension plugging are right. Refuted: plugged in tension mobilises the inner perimeter, the alpha limit is not used by the t-z curve, function multipliers raise TypeError."
  },
  {
   "property": "C52",
   "status": "partial",
   "theorems": [
    "C52_multiplier",
    "C52_monotone_in_ra_partial",
    "C52_monotone_in_ra_refuted",
    "C52_unchanged_at_default_partial",
    "C52_unchanged_at_default_refuted",
    "C52_static_at_one"
   ],
   "note": "At least 1 and inverse of the normalized variant for all inputs. Monotone in ra only down to 3/1.143 diameters, refuted below. At ra=0.3 the multiplier is 1 + x/(9000 D), so unchanged is refuted."
  },
  {
   "property": "C53",
   "status": "proved",
   "theorems": [
    "C53_linear",
    "C53_constant",
    "C53_function",
    "C53_error"
   ],
   "note": "Linear between top and bottom for every layer of positive thickness; scalars, callables and unsupported values as well."
  },
  {
   "property": "C54",
   "status": "partial",
   "theorems": [
    "C54_accepted_iff",
    "C54_held_is_accepted",
    "C54_accepted_is_held_refuted"
   ],
   "note": "The accepted set is characterised exactly; every loaded beam whose equations have a solution is accepted; the converse (accepted implies solvable) is refuted. The function is not called by the analyses."
  },
  {
   "property": "C55",
   "status": "proved",
   "theorems": [
    "C55_accepted_iff",
    "C55_only_value_error"
   ],
   "note": "Accepted iff coarseness, length and profile depth allow it; the only exception is ValueError."
  },
  {
   "property": "C56",
   "status": "partial",
   "theorems": [
    "C56_setter_on_valid_model_refuted"
   ],
   "note": "Refuted: setters do not preserve validity when the model holds equal duplicates. The positive part is C03_histories_keep_unambiguous_models_valid."
  },
  {
   "property": "C57",
   "status": "partial",
   "theorems": [
    "C57_condition_at_requested_elevation_is_applied",
    "C57_on_its_own_node_partial",
    "C57_own_node_refuted",
    "C57_unrequested_elevation_dropped_refuted"
   ],
   "note": "Applied: proved. Own node: false for elevations closer than the 1 mm + 1e-5 tolerance (refuted), proved above it. An elevation that was not requested is dropped (refuted)."
  },
  {
   "property": "C58",
   "status": "partial",
   "theorems": [
    "C58_continuous_friction_partial",
    "C58_uniform_mesh_partial",
    "C58_layer_jump_refuted"
   ],
   "note": "False when friction jumps at a layer boundary between elements of unequal height (refuted). Proved for continuous friction on any mesh and for any friction on a uniform mesh."
  },
  {
   "property": "C59",
   "status": "partial",
   "theorems": [
    "C59_code_shear_compliance_partial",
    "C59_shear_too_stiff_refuted"
   ],
   "note": "False for every tube with 0 <= nu <= 0.5 (refuted in general): the code multiplies by k where theory divides. The compliance of the code is proved to be k/(A G)."
  },
  {
   "property": "C60",
   "status": "proved",
   "theorems": [
    "C60_beam_succeeds_iff_held"
   ],
   "note": "Exact support condition; Poisson's ratio at least -0.75."
  },
  {
   "property": "C61",
   "status": "partial",
   "theorems": [
    "C61_mirror_partial",
    "C61_direction_refuted",
    "C61_zero_resistance_curve_refuted",
    "C61_spring_vanishes_refuted"
   ],
   "note": "Refuted with rotational springs: the signed mobilised resistance makes them vanish on the side where the pile moves in the negative direction. Proved for models without rotational springs."
  },
  {
   "property": "C62",
   "status": "proved",
   "theorems": [
    "C62_virtual_work",
    "C62_symmetric",
    "C62_energy",
    "C62_stable",
    "C62_solvable",
    "C62_supported"
   ],
   "note": "For rotational springs the matrix coefficients are required to be positive semidefinite, which is proved for Euler-Bernoulli elements (eb_mtc_ok). C62_supported needs no nondecreasing resistances: a supported pile has a regular matrix with softening curves too."
  },
  {
   "property": "C63",
   "status": "partial",
   "theorems": [
    "C63_linear_tolerance_partial",
    "C63_tolerance_refuted"
   ],
   "note": "Exact tolerance in the linear range; refuted by an imposed head displacement."
  },
  {
   "property": "C64",
   "status": "partial",
   "theorems": [
    "C64_available_partial",
    "C64_rotational_distributed_refuted",
    "C64_other_layout"
   ],
   "note": "Available layouts characterised exactly; the rotational distributed layout is refuted (AttributeError)."
  },
  {
   "property": "C65",
   "status": "partial",
   "theorems": [
    "C65_springs_of_own_layer",
    "C65_off_grid_refuted"
   ],
   "note": "Proved for models whose elevations have at most four decimals; refuted otherwise."
  },
  {
   "property": "C66",
   "status": "partial",
   "theorems": [
    "C66_base_springs_partial",
    "C66_tip_depth_refuted",
    "C66_tip_depth_iff"
   ],
   "note": "Source layer, stress, width and depth in layer proved; the depth argument of base shear and moment is refuted (correct iff the profile ends at the tip)."
  },
  {
   "property": "C67",
   "status": "partial",
   "theorems": [
    "C67_perimeters_partial",
    "C67_inner_perimeter_refuted"
   ],
   "note": "Both perimeter arguments are the outer perimeter; refuted."
  },
  {
   "property": "C68",
   "status": "partial",
   "theorems": [
    "C68_py_springs_partial",
    "C68_base_springs_partial",
    "C68_moment_springs_partial",
    "C68_missing_resistance",
    "C68_curvature_function_refuted",
    "C68_kinds_of_springs",
    "C68_no_base_spring"
   ],
   "note": "All nine models' p-y springs, all PISA base and m-t springs. Missing values of sand carry over to their moments. Refuted for a curvature given as a function (C68_curvature_function_refuted). Missing: custom curves whose samples hit the singularity of the conic, PISA layers outside the documented range."
  },
  {
   "property": "C69",
   "status": "proved",
   "theorems": [
    "C69_p_y_multipliers",
    "C69_m_t_multipliers",
    "C69_base_springs_not_multiplied",
    "C69_independent",
    "C69_multiplier_functions"
   ],
   "note": "Point-by-point scaling for all models, failing calls included; base springs, signature and the other curve type unchanged."
  },
  {
   "property": "C70",
   "status": "partial",
   "theorems": [
    "C70_below_the_layer",
    "C70_above_the_layer_refuted"
   ],
   "note": "Below the layer: ValueError from every spring function the model has. Refuted above the layer: a linear strength is extrapolated to a negative resistance."
  },
  {
   "property": "C71",
   "status": "partial",
   "theorems": [
    "C71_rock_depth_partial",
    "C71_rock_depth_refuted"
   ],
   "note": "Right when the layer starts at ground level. Refuted under overburden: the resistance exceeds that at the true depth in rock."
  },
  {
   "property": "C72",
   "status": "partial",
   "theorems": [
    "C72_cowden",
    "C72_dunkirk_partial"
   ],
   "note": "Cowden: all four spring functions equal, errors included. Dunkirk: likewise for a constant density and no singular conic sample, from 8 points."
  },
  {
   "property": "C73",
   "status": "proved",
   "theorems": [
    "C73_clay_moment",
    "C73_sand_moment"
   ],
   "note": "Clay and sand rows with peak, mobilisation rotation and shape."
  },
  {
   "property": "C74",
   "status": "partial",
   "theorems": [
    "C74_api_sand",
    "C74_dunkirk_refuted"
   ],
   "note": "API sand: all moments vanish. Refuted for Dunkirk sand: positive moments with zero lateral resistance."
  },
  {
   "property": "C75",
   "status": "proved",
   "theorems": [
    "C75_element_flexibility",
    "C75_cantilever_exact"
   ],
   "note": "Poisson's ratio from -0.75 up, as for C23. Shear compliance is the one the code uses (see C59)."
  },
  {
   "property": "C76",
   "status": "proved",
   "theorems": [
    "C76_one_node_more",
    "C76_refinement",
    "C76_refinement_succeeds"
   ],
   "note": "Poisson's ratio from -0.75 up, as for C23; beam analysis without soil."
  },
  {
   "property": "C77",
   "status": "proved",
   "theorems": [
    "C77_matrix_balance",
    "C77_result_balance",
    "C77_linear_balance"
   ],
   "note": "Moment balance for models without distributed moment springs or with Euler-Bernoulli elements; the Timoshenko moment matrix is wrong (C27)."
  },
  {
   "property": "C78",
   "status": "proved",
   "theorems": [
    "C78_solved_iff_held",
    "C78_analysis_of_calls",
    "C78_circular_sections"
   ],
   "note": "Elevations to four decimals, user elevations within the pile, Poisson's ratio from -0.75 up; the library's circular sections with a wall thinner than the diameter have stiffness (C78_circular_sections). Floating point singularity detection is exact here."
  },
  {
   "property": "C79",
   "status": "proved",
   "theorems": [
    "C79_reactions_balance_loads",
    "C79_reaction_table_balances_loads",
    "C79_calls_are_separate"
   ],
   "note": "Loads that are whole numbers (others are truncated, C06) given at elevations of nodes."
  },
  {
   "property": "C80",
   "status": "proved",
   "theorems": [
    "C80_displacement_table"
   ],
   "note": "Beam analysis; zero prescribed displacements are ignored by the code (C07)."
  },
  {
   "property": "C81",
   "status": "proved",
   "theorems": [
    "C81_order_of_conditions"
   ],
   "note": "Results are equal, not only equivalent."
  },
  {
   "property": "C82",
   "status": "partial",
   "theorems": [
    "C82_boundary_off_grid_refuted",
    "C82_not_circular_refuted"
   ],
   "note": "Refuted as stated: C82_boundary_off_grid_refuted. The part that holds is C78 (four decimals)."
  },
  {
   "property": "C83",
   "status": "proved",
   "theorems": [
    "C83_pile_soil_mechanics",
    "C83_pile_soil_balance"
   ],
   "note": "The balance holds for any springs; stability for springs that meet sound_springs (nondecreasing resistances, psd moment matrices). Moment balance as in C77."
  },
  {
   "property": "C84",
   "status": "partial",
   "theorems": [
    "C84_base_springs",
    "C84_rows_partial",
    "C84_tip_row_refuted",
    "C84_table_exists",
    "C84_tables",
    "C84_no_soil_no_tables",
    "C84_negative_side_refuted"
   ],
   "note": "Refuted: last row repeats the node above the tip; moments from lateral pressure vanish on the negative side. Proved for every other row, with existence of the table."
  },
  {
   "property": "C85",
   "status": "partial",
   "theorems": [
    "C85_numbers_mean_equilibrium",
    "C85_failed_tables_partial",
    "C85_failure_not_shown_refuted",
    "C85_columns"
   ],
   "note": "Equilibrium, prescribed displacements and reactions proved from the returned tables. Refuted: a failed analysis has an empty reaction table and a pass number under 'converged'."
  },
  {
   "property": "C86",
   "status": "proved",
   "theorems": [
    "C86_extremes"
   ],
   "note": "Forces to half a hundredth, displacements to half a thousandth; rounding in exact arithmetic."
  },
  {
   "property": "C87",
   "status": "partial",
   "theorems": [
    "C87_solve_returns",
    "C87_winkler_without_soil_refuted"
   ],
   "note": "Proved for solve; refuted for winkler without soil."
  },
  {
   "property": "C88",
   "status": "partial",
   "theorems": [
    "C88_accepted",
    "C88_curves_partial",
    "C88_number_or_list",
    "C88_friction_angle_refuted",
    "C88_negative_friction_refuted",
    "C88_density_refuted",
    "C88_inside_friction_refuted",
    "C88_unknown_keyword",
    "C88_fields_filled",
    "C88_clay_axial",
    "C88_sand_axial",
    "C88_given_values",
    "C88_missing_value"
   ],
   "note": "acceptance iff exact for all models; curves of accepted models proved for the API, Matlock and weak rock models and PISA clays down to 6 D; the refuted theorems show accepted models that fail; string and boolean coercion of pydantic is not modelled"
  },
  {
   "property": "C89",
   "status": "proved",
   "theorems": [
    "C89_never_rejects",
    "C89_exceptions",
    "C89_order",
    "C89_negative_multiplier_refuted"
   ],
   "note": "exact description of the check; the refuted theorem shows what it lets through"
  },
  {
   "property": "C90",
   "status": "proved",
   "theorems": [
    "C90_prints",
    "C90_varying_modulus_refuted",
    "C90_profile",
    "C90_content",
    "C90_profile_content",
    "C90_names_refuted",
    "C90_same_name_other_springs_refuted",
    "C90_axial",
    "C90_words",
    "C90_axial_content"
   ],
   "note": "exact condition for printing; the refuted theorems show accepted models that cannot be printed or print another model's name"
  },
  {
   "property": "C91",
   "status": "partial",
   "theorems": [
    "C91_as_if_fresh_partial",
    "C91_values_in_force_partial",
    "C91_asking_changes_nothing",
    "C91_without_soil"
   ],
   "note": "Holds for programs that read no table of axial or lateral springs; C92 gives the effect of reading them. Pile, mesh, options and base springs are the unchanging frame; assignments to fields of the object are not modelled."
  },
  {
   "property": "C92",
   "status": "partial",
   "theorems": [
    "C92_springs_after_reading_partial",
    "C92_deflection_after_reading_refuted",
    "C92_shaft_after_reading_refuted"
   ],
   "note": "Refuted; the exact effect of any number of readings on every spring is proved, with a concrete program whose second analysis differs and a closed form for the shaft resistance of uniform piles."
  },
  {
   "property": "C93",
   "status": "proved",
   "theorems": [
    "C93_accepted_iff",
    "C93_refusal_is_value_error",
    "C93_shear_modulus",
    "C93_material_of_pile",
    "C93_every_pile_is_stiff",
    "C93_custom"
   ],
   "note": "Acceptance iff, elastic relation and the material a pile ends up with."
  },
  {
   "property": "C94",
   "status": "proved",
   "theorems": [
    "C94_table_describes_pile",
    "C94_nothing_else",
    "C94_volumes",
    "C94_gross_volume"
   ],
   "note": "For all accepted piles; the gross volume for circular sections as the constructor makes them."
  },
  {
   "property": "C95",
   "status": "partial",
   "theorems": [
    "C95_shape_iff",
    "C95_printing_never_fails",
    "C95_printed_walls",
    "C95_shape_is_text_refuted",
    "C95_never_undefined_refuted",
    "C95_text_report_refuted",
    "C95_walls",
    "C95_circular_pile",
    "C95_missing_attributes"
   ],
   "note": "Shape, printing and walls proved. Refuted: the shape of another kind of section is None because the return is missing, and the text report raises AttributeError for every pile."
  },
  {
   "property": "C96",
   "status": "partial",
   "theorems": [
    "C96_announced_iff",
    "C96_axial_turned",
    "C96_lateral_kept",
    "C96_axial_announced_refuted"
   ],
   "note": "Proved for p-y, m-t, Hb and Mb. Refuted for t-z and Q-z, which are never checked."
  },
  {
   "property": "C97",
   "status": "partial",
   "theorems": [
    "C97_table_numbers_are_nodes",
    "C97_base_table_partial",
    "C97_base_number_refuted",
    "C97_no_soil_no_table"
   ],
   "note": "Distributed and lumped tables proved. Refuted for base spring tables, whose number is one past the last node in every model."
  },
  {
   "property": "C98",
   "status": "partial",
   "theorems": [
    "C98_same_iff",
    "C98_without_elevations_refuted",
    "C98_same_defaults_refuted"
   ],
   "note": "Equal exactly when elevations and both axial options are given. Refuted: create without x2mesh always fails, and its defaults leave out the axial springs."
  },
  {
   "property": "C99",
   "status": "partial",
   "theorems": [
    "C99_top_is_highest",
    "C99_bottom_is_soil_bottom",
    "C99_mesh_within_model",
    "C99_embedment_bounds",
    "C99_embedded_refuted"
   ],
   "note": "Top, bottom, mesh range and embedment bounds proved. Refuted: a pile that ends above the ground is accepted with negative embedment."
  },
  {
   "property": "C100",
   "status": "partial",
   "theorems": [
    "C100_choice_iff",
    "C100_only_user_input_error",
    "C100_numbers_iff_partial",
    "C100_only_numbers_refuted"
   ],
   "note": "Choice helper proved; the number helper also accepts truth values (refuted)."
  },
  {
   "property": "C101",
   "status": "partial",
   "theorems": [
    "C101_shaft_resistance",
    "C101_uniform_mesh",
    "C101_continuous_friction",
    "C101_without_axial_springs",
    "C101_integral_refuted"
   ],
   "note": "Closed form proved for every accepted model on the four-decimal grid with layer weights above 10 and admissible API models; equality with the integral proved for uniform meshes and for continuous friction and refuted otherwise. Calls with equal arguments on the same model share their random draw."
  },
  {
   "property": "C102",
   "status": "proved",
   "theorems": [
    "C102_tip_resistance",
    "C102_without_base_spring"
   ],
   "note": "For every accepted model on the four-decimal grid with layer weights above 10 and admissible API models."
  },
  {
   "property": "C103",
   "status": "partial",
   "theorems": [
    "C103_plugged_partial",
    "C103_inner_perimeter_refuted"
   ],
   "note": "Plugged: the inner perimeter plays no role. Not plugged: refuted for every model."
  },
  {
   "property": "C104",
   "status": "proved",
   "theorems": [
    "C104_constructed",
    "C104_springs_of_models",
    "C104_no_failed_spring",
    "C104_exception_of_a_call"
   ],
   "note": "The description of a sound site (sound_site) asks for elevations given to four decimals, layers above the pile top excluded, unit weights above that of water and parameters in the range of each model; storing in float32 is any order, zero and sign preserving function. The witness has all six kinds of springs on."
  },
  {
   "property": "C105",
   "status": "proved",
   "theorems": [
    "C105_stiffness"
   ],
   "note": "Moment springs require lateral springs, see C107."
  },
  {
   "property": "C106",
   "status": "proved",
   "theorems": [
    "C106_no_warning"
   ],
   "note": "On the values after storing."
  },
  {
   "property": "C107",
   "status": "partial",
   "theorems": [
    "C107_ends",
    "C107_moment_springs_alone_refuted",
    "C107_supported",
    "C107_soil_holds_pile",
    "C107_balance"
   ],
   "note": "Results with numbers are proved for supported piles unless 100 passes are used up; convergence itself is not claimed (the loop need not converge, C37). Timoshenko elements with moment springs are excluded from the regularity claims because their matrix is wrong (C27). Moment springs without lateral springs: refuted for every such model."
  },
  {
   "property": "C108",
   "status": "proved",
   "theorems": [
    "C108_analysis_in_program"
   ],
   "note": "Tables read before the analysis change the springs: excluded by hypothesis, quantified by C92."
  },
  {
   "property": "C109",
   "status": "partial",
   "theorems": [
    "C109_no_program_fails",
    "C109_supported"
   ],
   "note": "Moment springs need lateral springs (C107); Timoshenko elements with moment springs are excluded (C27). Convergence is not claimed."
  },
  {
   "property": "C110",
   "status": "proved",
   "theorems": [
    "C110_shaft_resistance",
    "C110_tip_resistance"
   ],
   "note": "Storage is any monotone sign-keeping function with relative error eps; an instance with 24 significant bits is given (float32 without limits on the exponent)."
  },
  {
   "property": "C111",
   "status": "partial",
   "theorems": [
    "C111_loads_drawn",
    "C111_user_load_drawn",
    "C111_supports_drawn",
    "C111_plotted_iff",
    "C111_only_moments_refuted",
    "C111_prescribed_displacement_refuted",
    "C111_visible",
    "C111_layers_drawn",
    "C111_curves_drawn",
    "C111_names_in_plot_refuted"
   ],
   "note": "A plot is what the code asks matplotlib to draw; colours, grids and labels are left out. The parts that fail are refuted."
  },
  {
   "property": "C112",
   "status": "proved",
   "theorems": [
    "C112_layers_drawn",
    "C112_water_drawn",
    "C112_visible"
   ],
   "note": "Colours and tick labels are left out."
  },
  {
   "property": "C113",
   "status": "partial",
   "theorems": [
    "C113_displacement_curves",
    "C113_force_curves",
    "C113_figures",
    "C113_failed_analysis_refuted"
   ],
   "note": "Limits of a failed analysis are refuted."
  },
  {
   "property": "C114",
   "status": "partial",
   "theorems": [
    "C114_without_base_springs",
    "C114_any_program",
    "C114_base_springs_added",
    "C114_balance",
    "C114_ignores_soil_refuted",
    "C114_solved_iff_held",
    "C114_slopes",
    "C114_unsupported_refuted"
   ],
   "note": "Base curves whose first two points coincide raise ZeroDivisionError and are excluded by the hypothesis that the slopes exist. The claim that the soil is ignored is refuted."
  },
  {
   "property": "C115",
   "status": "partial",
   "theorems": [
    "C115_consistent",
    "C115_sign",
    "C115_translation",
    "C115_rigid_rotation",
    "C115_timoshenko_refuted",
    "C115_axial_force"
   ],
   "note": "Timoshenko elements are refuted. The function is not called by any analysis."
  },
  {
   "property": "C116",
   "status": "partial",
   "theorems": [
    "C116_rest",
    "C116_base_unique_partial",
    "C116_base_monotone_partial",
    "C116_same_result_partial",
    "C116_unique_refuted"
   ],
   "note": "Proved for models with base springs only; with springs along the shaft it is refuted."
  },
  {
   "property": "C117",
   "status": "partial",
   "theorems": [
    "C117_translation_partial",
    "C117_tilted",
    "C117_ultimate_refuted",
    "C117_analysis_refuted"
   ],
   "note": "Proved for movements without tilt; refuted in general, for one element and for a whole analysis."
  },
  {
   "property": "C119",
   "status": "partial",
   "theorems": [
    "C119_unit",
    "C119_solver",
    "C119_element",
    "C119_length_refuted"
   ],
   "note": "The unit of length is refuted (fixed step of the tangent stiffness). Rounding is not modelled, so the solver is exact."
  },
  {
   "property": "C120",
   "status": "partial",
   "theorems": [
    "C120_mirror_partial",
    "C120_element",
    "C120_axial_partial",
    "C120_mirror_refuted"
   ],
   "note": "Proved without moment springs; with moment springs it is refuted for a whole analysis."
  },
  {
   "property": "C118",
   "status": "proved",
   "theorems": [
    "C118_least_energy",
    "C118_loads",
    "C118_under_the_load",
    "C118_settlements",
    "C118_elements",
    "C118_pile",
    "C118_everywhere_refuted"
   ],
   "note": "C118_everywhere_refuted shows that the stronger claim about every displacement fails."
  },
  {
   "property": "C121",
   "status": "partial",
   "theorems": [
    "C121_py_springs_partial",
    "C121_matlock",
    "C121_base_springs",
    "C121_moment_springs_partial",
    "C121_clay_moment_springs_partial",
    "C121_sand_partial",
    "C121_rock_partial",
    "C121_sand_default_refuted",
    "C121_rock_length_refuted",
    "C121_modified_moduli_refuted",
    "C121_hooks",
    "C121_clay_moment_length_refuted",
    "C121_sand_moment_springs_partial",
    "C121_sand_moment_limit_refuted",
    "C121_sand_moment_length_refuted"
   ],
   "note": "Whole claim proved where the formulas have no dimensional constant (C121_py_springs_partial, C121_matlock, C121_base_springs, C121_moment_springs_partial, C121_hooks), with conditions for sand, rock and the moment curves of the API clays; refuted for default and modified subgrade moduli, rock lengths and padded rotations. Moment curves of API sand: another unit of force below the limits of the friction table (C121_sand_moment_springs_partial), refuted where the table governs and for units of length."
  },
  {
   "property": "C122",
   "status": "partial",
   "theorems": [
    "C122_clay_shaft_partial",
    "C122_clay_tip",
    "C122_sand_shaft_partial",
    "C122_sand_tip_partial",
    "C122_kraft_force",
    "C122_clay_surface_refuted",
    "C122_sand_limits_refuted",
    "C122_sand_displacements_refuted",
    "C122_kraft_length_refuted"
   ],
   "note": "Clay end bearing and Kraft in another unit of force without condition; clay friction for non-zero stress; sand below the limits. Refuted at the surface, at the limits, for sand displacements and for the residual of Kraft in another unit of length."
  },
  {
   "property": "C123",
   "status": "partial",
   "theorems": [
    "C123_kept",
    "C123_soil_partial",
    "C123_bare_partial",
    "C123_finer_refuted",
    "C123_moved_node_refuted"
   ],
   "note": "Kept tables (C123_kept) for every program; one mesh under a condition on the order of reads and assignments (C123_soil_partial, C123_bare_partial); refuted without it, by another number of nodes and by nodes elsewhere."
  },
  {
   "property": "C124",
   "status": "partial",
   "theorems": [
    "C124_stale",
    "C124_choices_partial",
    "C124_bare",
    "C124_switched_on_refuted",
    "C124_added_soil_refuted"
   ],
   "note": "Proved for element type, material, springs switched off and setter calls (C124_choices_partial; the springs must be free of NaN) and for models without soil before the first look (C124_bare); refuted for soil, mesh and springs switched on (C124_stale says that no answer depends on them)."
  },
  {
   "property": "C125",
   "status": "proved",
   "theorems": [
    "C125_same_springs",
    "C125_division_accepted",
    "C125_same_answers",
    "C125_cut",
    "C125_order"
   ],
   "note": "Equal draws are a hypothesis (same_luck: calls at one elevation with the same arguments except layer height and depth in the layer; steady for the order). The tip may lie in or at the end of a layer; the profile must start at the ground and the requested elevations have four decimals. C125_division_accepted goes one way only: a coarser profile makes more calls of base springs, with the widths of all elements of the tip layer."
  },
  {
   "property": "C126",
   "status": "partial",
   "theorems": [
    "C126_axial_springs",
    "C126_moment_springs",
    "C126_lateral_springs",
    "C126_modified_matlock_refuted",
    "C126_analyses"
   ],
   "note": "Proved for every lateral model but the modified Matlock clay, for which the claim is refuted (C126_modified_matlock_refuted). In the model a draw is a function of the soil model and of the arguments of the call. Curves are stored by a monotone function keeping signs; the refutation needs a relative error below a millionth, as float32 has."
  },
  {
   "property": "C127",
   "status": "proved",
   "theorems": [
    "C127_superposition",
    "C127_betti",
    "C127_reciprocity",
    "C127_influence_line",
    "C127_fractions_refuted"
   ],
   "note": "Loads are whole numbers of kN and kNm at node elevations (fractions are cut: C127_fractions_refuted shows that superposition fails for them). Reactions are the vector of the solver before winkler.reaction_forces_to_df drops unsupported rows."
  },
  {
   "property": "C128",
   "status": "partial",
   "theorems": [
    "C128_base_springs",
    "C128_moment_sand_refuted",
    "C128_moment_springs_partial",
    "C128_shaft_resistance",
    "C128_tip_resistance",
    "C128_py_springs_partial",
    "C128_cyclic_clay_refuted",
    "C128_subgrade_refuted",
    "C128_weakrock_partial",
    "C128_weakrock_percent_partial",
    "C128_weakrock_refuted",
    "C128_weakrock_springs_partial",
    "C128_api_clay_rows",
    "C128_api_sand_rows_partial",
    "C128_api_sand_pressure_refuted",
    "C128_custom_sand_rows_partial"
   ],
   "note": "Axial capacity proved for any two sites on one mesh. p-y springs proved at the points of the curves, for weak rock within half a percent and refuted without that margin (C128_weakrock_refuted); refuted for cyclic clay (C128_cyclic_clay_refuted) and for the subgrade modulus derived from friction angles below 26 degrees (C128_subgrade_refuted). Base shear and base moment proved for the five PISA models. Moment springs proved for the PISA clays (Cowden clay down to three diameters) and refuted for Dunkirk sand (C128_moment_sand_refuted); proved for API clays and, between points at the same share of the lateral resistance, for API sand and custom sand (C128_api_sand_rows_partial, C128_custom_sand_rows_partial); at the same lateral resistance refuted for API sand (C128_api_sand_pressure_refuted). The custom sand rows take the same dimensionless parameters in both soils."
  },
  {
   "property": "C129",
   "status": "partial",
   "theorems": [
    "C129_one_stiffness",
    "C129_analysis",
    "C129_superposition_partial",
    "C129_convex",
    "C129_reciprocity_partial",
    "C129_small_loads_partial",
    "C129_beyond_refuted"
   ],
   "note": "Moment springs are covered where their curves do not depend on the lateral resistance (constant rows); small loads where no node with an axial curve that starts with different slopes in tension and compression moves up; axial curves need the origin at an odd place (C34). Superposition beyond the elastic range is refuted (C129_beyond_refuted)."
  },
  {
   "property": "C130",
   "status": "partial",
   "theorems": [
    "C130_mesh",
    "C130_nodes",
    "C130_rounding_refuted",
    "C130_model",
    "C130_profile_refuted",
    "C130_analysis",
    "C130_programs",
    "C130_beam",
    "C130_reach",
    "C130_load_refuted",
    "C130_weights",
    "C130_tip_stress"
   ],
   "note": "The datum must move by whole tenths of a millimetre (an even number or no ties), layers lie within 1000 km of both datums, and loads reach the same nodes with both tolerances. Each condition is needed: C130_rounding_refuted, C130_profile_refuted, C130_load_refuted."
  },
  {
   "property": "C131",
   "status": "partial",
   "theorems": [
    "C131_accepted",
    "C131_color",
    "C131_drawn",
    "C131_twice",
    "C131_other_kind",
    "C131_given_refuted"
   ],
   "note": "That a layer always has a colour in HEX format is refuted for given strings (C131_given_refuted): only their length is checked. Whether matplotlib accepts a string is not modelled."
  },
  {
   "property": "C132",
   "status": "partial",
   "theorems": [
    "C132_rest_exists",
    "C132_approach_partial",
    "C132_converges_partial",
    "C132_tip_load_partial",
    "C132_slow_refuted"
   ],
   "note": "One spring at the tip; with several springs along the shaft there may be several states of rest (C116). Convergence without a bound on the stiffness of the spring is refuted (C132_slow_refuted). Floating point is not modelled."
  },
  {
   "property": "C133",
   "status": "partial",
   "theorems": [
    "C133_value",
    "C133_numpy",
    "C133_model",
    "C133_stiffness",
    "C133_analysis",
    "C133_site",
    "C133_site_analysis",
    "C133_this_analysis",
    "C133_unsorted_refuted"
   ],
   "note": "Springs in disorder are refuted (C133_unsorted_refuted). Floating point is not modelled."
  },
  {
   "property": "C134",
   "status": "partial",
   "theorems": [
    "C134_soil_helps",
    "C134_first_pass_partial",
    "C134_passes",
    "C134_under_the_load_partial",
    "C134_analysis",
    "C134_moments_refuted"
   ],
   "note": "The lower bound is proved for springs none of which exceeds its initial stiffness (`softening_soil`); for moments that grow with the lateral resistance it is refuted (C134_moments_refuted). The bounds are exact for states of rest; a reported result is one under loads within the tolerance (C134_analysis)."
  },
  {
   "property": "C135",
   "status": "partial",
   "theorems": [
    "C135_lateral_partial",
    "C135_base_partial",
    "C135_moments_partial",
    "C135_clay_moments",
    "C135_moments_dunkirk_refuted",
    "C135_axial_partial",
    "C135_plugged_refuted",
    "C135_rows_partial",
    "C135_rows_dunkirk_refuted"
   ],
   "note": "Refuted for the distributed moments of Dunkirk sand and for shafts plugged in compression only. Clay curves with a prescribed extent need 0.25 eps50 D <= ymax or ymax = 0; weak rock needs its ultimate resistance to be within reach of the initial line; PISA curves are covered up to 4000 points along the shaft, 22 at the base, 21 (Bothkennar) and 15 (Cowden, down to 3.5 diameters) for moments; custom PISA curves need an ultimate displacement of at least (n - 6)/80, because of the snapping within 0.01 of it. The rows of the moment springs are covered with their multipliers (C135_rows_partial) and, for Dunkirk sand, refuted for every point of the p-y curve that resists (C135_rows_dunkirk_refuted)."
  },
  {
   "property": "C136",
   "status": "partial",
   "theorems": [
    "C136_numbers",
    "C136_exceptions",
    "C136_result",
    "C136_nan",
    "C136_nan_tolerance",
    "C136_negative",
    "C136_shown",
    "C136_converged",
    "C136_light_loads",
    "C136_light_loads_refuted",
    "C136_passes_refuted"
   ],
   "note": "Displacements, reactions, exceptions and, for results with numbers, passes, error and tolerance are those of the model that stops at pass 100 (C136_numbers, C136_exceptions, C136_result, C136_nan); shown norms are exact to half a thousandth and error <= tolerance for results with numbers from 99 allowed passes on (C136_converged). Refuted: the strict inequality for light loads and the bound max_iter on the number of passes."
  },
  {
   "property": "C137",
   "status": "partial",
   "theorems": [
    "C137_equal_elements",
    "C137_no_other_nodes",
    "C137_count",
    "C137_bounds",
    "C137_fewest",
    "C137_finer",
    "C137_set_of_elevations",
    "C137_five",
    "C137_nested_partial",
    "C137_nested_refuted"
   ],
   "note": "All parts proved except that meshes are nested: C137_nested_partial needs a coarseness that divides every distance between neighbouring elevations, and C137_nested_refuted shows that halving the coarseness in general drops nodes (7 m, 1.3 m: six elements, then eleven)."
  },
  {
   "property": "C138",
   "status": "proved",
   "theorems": [
    "C138_jumps",
    "C138_integral",
    "C138_deepening"
   ],
   "note": "C138_jumps and C138_integral give the bounds, C138_deepening the soils. The situation is that of C101 (layer weights above 10, four decimals)."
  },
  {
   "property": "C139",
   "status": "proved",
   "theorems": [
    "C139_analysis",
    "C139_program",
    "C139_bare",
    "C139_sections"
   ],
   "note": "x2mesh lists with the same requests (order, repetitions, borders of sections and layers) and permuted sections give equal analyses and programs; the order of layers is C125_order"
  },
  {
   "property": "C140",
   "status": "partial",
   "theorems": [
    "C140_parameter",
    "C140_functions",
    "C140_objects_refuted",
    "C140_sand_refuted",
    "C140_clay_refuted",
    "C140_error_reaches_user",
    "C140_site_refuted",
    "C140_custom_sand",
    "C140_custom_clay"
   ],
   "note": "Proved for plain functions (also that every one of the custom parameters reaches its curve), for all callables as multipliers, and for exceptions reaching the user from p-y and m-t functions. Refuted for other callables as parameters of the custom PISA models (C140_objects_refuted, C140_sand_refuted, C140_clay_refuted, C140_site_refuted)."
  },
  {
   "property": "C141",
   "status": "partial",
   "theorems": [
    "C141_stiffness",
    "C141_across",
    "C141_along",
    "C141_program",
    "C141_tables",
    "C141_reported_refuted"
   ],
   "note": "C141_stiffness: no coupling, and each direction's block depends on that direction's displacements and springs only. C141_across / C141_along: two analyses that differ in the other direction only compute the same displacements pass by pass, and report the same displacements and reactions where both settle after the same number of passes. C141_program: the same for whole programs whose setter calls differ along the pile only. C141_tables: without soil the tables agree unconditionally. C141_reported_refuted: with soil the number of passes, and so what is reported across the pile, depends on the load along it, because the tolerance is taken from all loads together."
  },
  {
   "property": "C142",
   "status": "proved",
   "theorems": [
    "C142_loop",
    "C142_program",
    "C142_reported",
    "C142_mobilised"
   ],
   "note": "C142_loop: every pass, the displacements and the forces of the loop; C142_program: the same from the description of the site and the setter calls; C142_reported: all rows of the displacement, force and reaction tables, with soil or without; C142_mobilised: mobilised resistance of all springs and base reactions. Exact arithmetic; in floats the zeros are zeros up to rounding of the linear solver."
  },
  {
   "property": "C143",
   "status": "proved",
   "theorems": [
    "C143_elements",
    "C143_rotational_springs",
    "C143_virtual_work",
    "C143_virtual_work_in_soil"
   ],
   "note": "C143_elements: matrix of every element of every meshed pile, both element types; C143_rotational_springs: coefficients of the rotational springs of every element (Timoshenko: the matrix of C27 for the values of the section; what is wrong with that matrix is said in C27); C143_virtual_work and C143_virtual_work_in_soil: principle of virtual work for whole analyses with Euler-Bernoulli elements, without and with soil. In soil the displacement V of the balance is that of the final solve from which the code takes the reactions (C35)."
  },
  {
   "property": "C144",
   "status": "partial",
   "theorems": [
    "C144_small_displacements_partial",
    "C144_pressed_down_partial",
    "C144_small_loads_refuted"
   ],
   "note": "C144_small_displacements_partial: whole programs with prescribed displacements, moment springs only with Euler-Bernoulli elements and soil models whose moment curves do not depend on the lateral resistance (clays), and across the pile if axial springs are on, or in every direction if there is no spring at the tip and the shaft takes as much in tension as in compression (C144_pulled_example); C144_pressed_down_partial: with axial springs, movements along the pile as long as the linear answer moves no node upwards; the examples give an analysis of the site of C107 that ends with numbers, which C107_balance and C143_virtual_work_in_soil ask for. C144_small_loads_refuted: with loads below 1 kN every held pile in every sound site ends without numbers (C06 and C37 together). Missing: the moment springs of sands, moment springs of Timoshenko elements, and upward movements with axial springs whose slopes differ upwards and downwards."
  },
  {
   "property": "C145",
   "status": "proved",
   "theorems": [
    "C145_raised",
    "C145_type_error_refuted"
   ],
   "note": "C145_raised: the geometry of the site is sound, the soil models are arbitrary. C145_type_error_refuted: accepted callables that always end in TypeError (the claim that accepted parameters work is false). Examples: two sites on the profile of C107."
  },
  {
   "property": "C146",
   "status": "partial",
   "theorems": [
    "C146_tables_partial",
    "C146_switched_off_refuted",
    "C146_base_off_refuted",
    "C146_report"
   ],
   "note": "C146_tables_partial: displacements, forces, reactions, passes and the tables of springs that stay on agree with a freshly constructed model. C146_switched_off_refuted: the table of lateral springs that are switched off shows them mobilised at every moving node in resisting soil (the claim that the whole report agrees is false). C146_base_off_refuted: the same for the springs at the tip. C146_report: the report is that of the analysis the object runs. Example: the site of C107 with the springs switched off after construction."
  },
  {
   "property": "C147",
   "status": "proved",
   "theorems": [
    "C147_options",
    "C147_moments_alone"
   ],
   "note": "C147_options: the analysis of the object equals (same passes, displacements and reactions equal as rationals) that of a model constructed with the springs on at both times. C147_moments_alone: with moment springs on and lateral springs off at the end, UserInputError is raised. Example: the site of C107 constructed with base springs only, all switched on, then the base shear off."
  },
  {
   "property": "C148",
   "status": "partial",
   "theorems": [
    "C148_beyond_refuted",
    "C148_work_partial",
    "C148_under_the_load_partial",
    "C148_bound_partial",
    "C148_small_loads_partial",
    "C148_everywhere_refuted"
   ],
   "note": "C148_work_partial, C148_under_the_load_partial: both analyses in the elastic range. C148_small_loads_partial: all loads small enough, curves of any regular shape. C148_bound_partial: the first pile at any load, softening springs. C148_everywhere_refuted: a displacement away from the loads may grow. C148_beyond_refuted: beyond the elastic range a base moment spring twice as strong lets a moment on the head turn the head further (unique states of rest, base springs only). Missing: moment springs that depend on the lateral resistance."
  },
  {
   "property": "C149",
   "status": "partial",
   "theorems": [
    "C149_displacements_partial",
    "C149_under_the_load_partial",
    "C149_reactions_partial",
    "C149_points_partial",
    "C149_storage_partial"
   ],
   "note": "C149_displacements_partial: difference of the two answers in energy and at every degree of freedom. C149_under_the_load_partial: where a single load acts. C149_reactions_partial: prescribed displacements without loads. C149_points_partial: small loads, curves whose points agree up to a relative error. C149_storage_partial: the program, with spring arrays of two different precisions, under small prescribed displacements, moment springs of clays included. Missing: beyond the elastic range; moment springs depending on the lateral resistance."
  },
  {
   "property": "C150",
   "status": "partial",
   "theorems": [
    "C150_small_loads_in_proportion_partial",
    "C150_carried_alike_partial",
    "C150_opposite_refuted",
    "C150_program_partial"
   ],
   "note": "C150_small_loads_in_proportion_partial: all small multiples of the same loads end alike (exception, passes, NaN, displacements of every pass, reactions, error and tolerance in proportion). C150_carried_alike_partial: if one small multiple is carried, every other one is, after as many passes and with displacements in proportion. Example C150_case: a pile whose axial springs are half as stiff against pulling (C129 does not apply). C150_opposite_refuted: on that pile pushes t F sink it by t V and pulls t F lift it by 2 t V, for all small t. C150_program_partial: analyses of one site from layers and calls, with rounding in storage, under small prescribed displacements in proportion, also upwards against shaft and tip springs (Example C150_program_case, left out by C144). Missing: loads in the program as a whole, moment springs whose curves change with the lateral resistance."
  }
 ]
}