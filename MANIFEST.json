{
 "claims": [
  {
   "property": "C01",
   "status": "proved",
   "theorems": [
    "C01_strict_no_penetration"
   ],
   "note": "for every arithmetic, engine, callback and history of step/set_v calls"
  },
  {
   "property": "C02",
   "status": "proved",
   "theorems": [
    "C02_post_stab_refuted",
    "C02_post_stab_stuck",
    "C02_before_correction"
   ],
   "note": "the relied-on guarantee is refuted by a concrete run of the default engine; the true remainder is proved for every arithmetic, engine and callback"
  },
  {
   "property": "C03",
   "status": "proved",
   "theorems": [
    "C03_step_time",
    "C03_step_time_bounds",
    "C03_time_monotone"
   ],
   "note": ""
  },
  {
   "property": "C04",
   "status": "proved",
   "theorems": [
    "C04_fixed_step",
    "C04_fixed_step_any_arithmetic",
    "C04_fixed_history"
   ],
   "note": ""
  },
  {
   "property": "C05",
   "status": "proved",
   "theorems": [
    "C05_progress",
    "C05_run_world_terminates"
   ],
   "note": "the exceptions of engine and callback are excluded by returns_on, which is shown to hold for every world of circles with the default callback and an engine that returns"
  },
  {
   "property": "C06",
   "status": "proved",
   "theorems": [
    "C06_rejected_moves",
    "C06_rejected_moves_post_stab"
   ],
   "note": ""
  },
  {
   "property": "C07",
   "status": "proved",
   "theorems": [
    "C07_rejected_joints",
    "C07_rot2_drift",
    "C07_rot2_refuted"
   ],
   "note": "the relied-on guarantee is refuted for rot2 (exact drift formula and a concrete run); proved for everything else"
  },
  {
   "property": "C08",
   "status": "proved",
   "theorems": [
    "C08_free_body",
    "C08_impulse_refuted"
   ],
   "note": "the relied-on equality is refuted by a concrete run; the exact formula is proved for free bodies"
  },
  {
   "property": "C09",
   "status": "proved",
   "theorems": [
    "C09_velocity_layout",
    "C09_set_v",
    "C09_set_p",
    "C09_apply_forces",
    "package_handlers_frame"
   ],
   "note": ""
  },
  {
   "property": "C10",
   "status": "proved",
   "theorems": [
    "C10_symmetric",
    "C10_respected",
    "C10_exact",
    "C10_contact_bodies"
   ],
   "note": ""
  },
  {
   "property": "C11",
   "status": "proved",
   "theorems": [
    "C11_broadphase_overlap",
    "C11_no_pair_missed"
   ],
   "note": "ODE is assumed to report every pair with overlapping axis-aligned boxes (broadphase_complete)"
  },
  {
   "property": "C12",
   "status": "proved",
   "theorems": [
    "C12_hull_placement"
   ],
   "note": ""
  },
  {
   "property": "C13",
   "status": "proved",
   "theorems": [
    "C13_orientation",
    "C13_pose_independent",
    "C13_stays_valid"
   ],
   "note": ""
  },
  {
   "property": "C14",
   "status": "proved",
   "theorems": [
    "C14_rigid_body",
    "C14_rigid_world",
    "C14_shape_kept",
    "C14_centroid_inertia"
   ],
   "note": ""
  },
  {
   "property": "C15",
   "status": "proved",
   "theorems": [
    "C15_rect_corners",
    "C15_rect_init"
   ],
   "note": ""
  },
  {
   "property": "C16",
   "status": "proved",
   "theorems": [
    "C16_body_mass",
    "C16_world_mass"
   ],
   "note": ""
  },
  {
   "property": "C17",
   "status": "proved",
   "theorems": [
    "C17_box_orientation"
   ],
   "note": "ODE quaternion-to-matrix and box geometry are the specification quat_mat / geom_points"
  },
  {
   "property": "C18",
   "status": "proved",
   "theorems": [
    "C18_gravity",
    "C18_sum",
    "C18_no_force",
    "C18_impulses"
   ],
   "note": ""
  },
  {
   "property": "C19",
   "status": "proved",
   "theorems": [
    "C19_other_bodies",
    "C19_shared_gravity",
    "C19_shared_gravity_refuted"
   ],
   "note": "the relied-on guarantee is refuted for a shared Gravity object; proved otherwise"
  },
  {
   "property": "C20",
   "status": "proved",
   "theorems": [
    "C20_Je_measures",
    "C20_order"
   ],
   "note": ""
  },
  {
   "property": "C21",
   "status": "proved",
   "theorems": [
    "C21_anchor"
   ],
   "note": ""
  },
  {
   "property": "C22",
   "status": "proved",
   "theorems": [
    "C22_polar_round_trip",
    "C22_polar_inverse"
   ],
   "note": ""
  },
  {
   "property": "C23",
   "status": "proved",
   "theorems": [
    "C23_newton",
    "C23_free_body"
   ],
   "note": "over the reals, given lapack_ok"
  },
  {
   "property": "C24",
   "status": "proved",
   "theorems": [
    "C24_cache_transparent",
    "C24_cache_is_current"
   ],
   "note": "for every arithmetic and LAPACK"
  },
  {
   "property": "C25",
   "status": "proved",
   "theorems": [
    "C25_circle_contact_iff",
    "C25_circle_contact_data",
    "C25_swap"
   ],
   "note": "ODE is assumed to report every pair with overlapping axis-aligned boxes (broadphase_complete)"
  },
  {
   "property": "C26",
   "status": "proved",
   "theorems": [
    "C26_contacts_consistent",
    "C26_callback_consistent",
    "C26_normal_refuted"
   ],
   "note": "the relied-on guarantee is refuted for a circle centred on an edge; proved for regular positions"
  },
  {
   "property": "C27",
   "status": "proved",
   "theorems": [
    "C27_support_extreme",
    "C27_support_fails",
    "C27_convex_support",
    "C27_any_hull_refuted",
    "C27_world_refuted"
   ],
   "note": "the relied-on guarantee is refuted for a self-intersecting hull; proved for convex bodies"
  },
  {
   "property": "C28",
   "status": "proved",
   "theorems": [
    "C28_separation_value",
    "C28_warm_start",
    "C28_separation_disjoint",
    "C28_separation_exact"
   ],
   "note": ""
  },
  {
   "property": "C29",
   "status": "proved",
   "theorems": [
    "C29_clip",
    "C29_outside_refuted"
   ],
   "note": "the relied-on empty result is refuted; the exact behaviour is proved"
  },
  {
   "property": "C30",
   "status": "proved",
   "theorems": [
    "C30_reference_line",
    "C30_reference_edge",
    "C30_general_hull_refuted"
   ],
   "note": "the relied-on guarantee is refuted for general hulls; proved for equidistant vertices (Rect), and the line property for all"
  },
  {
   "property": "C31",
   "status": "proved",
   "theorems": [
    "C31_closest"
   ],
   "note": ""
  },
  {
   "property": "C32",
   "status": "proved",
   "theorems": [
    "C32_nearest",
    "C32_nearest_unique",
    "C32_choice_irrelevant",
    "C32_diagonal_refuted"
   ],
   "note": "the relied-on independence is refuted for centres on a diagonal; proved otherwise"
  },
  {
   "property": "C33",
   "status": "proved",
   "theorems": [
    "C33_jacobians",
    "C33_mixing",
    "C33_order"
   ],
   "note": "over the reals"
  },
  {
   "property": "C34",
   "status": "proved",
   "theorems": [
    "C34_exact_solution",
    "C34_friction_dissipates",
    "C34_returned_point"
   ],
   "note": "over the reals, given lapack_ok for the returned point"
  },
  {
   "property": "C35",
   "status": "proved",
   "theorems": [
    "C35_step",
    "C35_history"
   ],
   "note": "over the reals, given lapack_ok"
  },
  {
   "property": "C36",
   "status": "proved",
   "theorems": [
    "C36_step",
    "C36_engine"
   ],
   "note": "over the reals, given lapack_ok"
  },
  {
   "property": "C37",
   "status": "proved",
   "theorems": [
    "C37_history_inelastic",
    "C37_history_frictionless",
    "C37_no_contacts",
    "C37_inelastic",
    "C37_frictionless",
    "C37_inelastic_returned",
    "C37_frictionless_returned",
    "C37_step",
    "C37_mixed_restitution_refuted",
    "C37_mixed_restitution_run_refuted",
    "C37_friction_restitution_refuted"
   ],
   "note": "the relied-on bound is refuted for mixed restitutions and for friction with restitution (exact solution and binary64 runs); proved otherwise"
  },
  {
   "property": "C38",
   "status": "proved",
   "theorems": [
    "C38_solve_kkt"
   ],
   "note": "given the LAPACK contract lapack_ok, which the reference implementation is proved to meet"
  },
  {
   "property": "C39",
   "status": "proved",
   "theorems": [
    "C39_refactorisation"
   ],
   "note": "given lapack_ok"
  },
  {
   "property": "C40",
   "status": "proved",
   "theorems": [
    "C40_btriunpack"
   ],
   "note": "given lapack_ok"
  },
  {
   "property": "C41",
   "status": "proved",
   "theorems": [
    "C41_get_step",
    "C41_interior",
    "C41_refuted"
   ],
   "note": "the relied-on guarantee is refuted for directions with a zero component (floats); proved otherwise over the reals"
  },
  {
   "property": "C42",
   "status": "proved",
   "theorems": [
    "C42_best_iterate",
    "C42_positive"
   ],
   "note": "over the reals, given lapack_ok"
  },
  {
   "property": "C43",
   "status": "proved",
   "theorems": [
    "C43_residuals",
    "C43_equalities",
    "C43_returned"
   ],
   "note": "over the reals, given lapack_ok"
  },
  {
   "property": "C44",
   "status": "proved",
   "theorems": [
    "C44_held"
   ],
   "note": "over the reals, given lapack_ok"
  },
  {
   "property": "C45",
   "status": "proved",
   "theorems": [
    "C45_symmetric",
    "C45_error",
    "C45_right_iff",
    "C45_returns",
    "C45_asymmetric_refuted",
    "C45_friction_refuted"
   ],
   "note": "the relied-on statement is refuted for asymmetric F (C45_asymmetric_refuted over the reals, C45_friction_refuted in floats on a sliding contact); exact for symmetric F, error term for every F; over the reals, given lapack_ok"
  },
  {
   "property": "C46",
   "status": "proved",
   "theorems": [
    "C46_refuted"
   ],
   "note": "the relied-on independence is refuted by concrete floating-point batches"
  },
  {
   "property": "C47",
   "status": "proved",
   "theorems": [
    "C47_certificate",
    "C47_reported"
   ],
   "note": ""
  },
  {
   "property": "C48",
   "status": "proved",
   "theorems": [
    "C48_files_consecutive",
    "C48_one_frame_per_call",
    "C48_not_ahead",
    "C48_keeps_up"
   ],
   "note": ""
  },
  {
   "property": "C49",
   "status": "proved",
   "theorems": [
    "C49_free_flight"
   ],
   "note": "over the reals, given lapack_ok"
  },
  {
   "property": "C50",
   "status": "proved",
   "theorems": [
    "C50_round_trip",
    "C50_no_blocks"
   ],
   "note": ""
  },
  {
   "property": "C51",
   "status": "proved",
   "theorems": [
    "C51_moment_of_inertia",
    "C51_circle"
   ],
   "note": ""
  },
  {
   "property": "C52",
   "status": "proved",
   "theorems": [
    "C52_contacts_current",
    "C52_default_callbacks"
   ],
   "note": ""
  },
  {
   "property": "C53",
   "status": "proved",
   "theorems": [
    "C53_detection_total",
    "C53_nearest_point_terminates",
    "C53_always"
   ],
   "note": "over the reals"
  },
  {
   "property": "C54",
   "status": "proved",
   "theorems": [
    "C54_touching_bodies_have_contact",
    "C54_rects_qualify",
    "C54_general_hull_refuted"
   ],
   "note": "the relied-on guarantee is refuted for general convex hulls; proved for circles and Rects, given broadphase_complete"
  },
  {
   "property": "C55",
   "status": "proved",
   "theorems": [
    "C55_total",
    "C55_iterations"
   ],
   "note": "over the reals, given lapack_ok"
  },
  {
   "property": "C56",
   "status": "proved",
   "theorems": [
    "C56_steps_return",
    "C56_run_ends",
    "C56_strict_no_exception"
   ],
   "note": "over the reals, given lapack_ok"
  },
  {
   "property": "C57",
   "status": "proved",
   "theorems": [
    "C57_centre_of_mass"
   ],
   "note": "over the reals, given lapack_ok"
  },
  {
   "property": "C58",
   "status": "proved",
   "theorems": [
    "C58_post_stabilization"
   ],
   "note": "over the reals, given lapack_ok"
  },
  {
   "property": "C59",
   "status": "proved",
   "theorems": [
    "C59_translation"
   ],
   "note": "over the reals, given lapack_ok and the same symmetry of py3ode"
  },
  {
   "property": "C60",
   "status": "proved",
   "theorems": [
    "C60_moving_frame",
    "C60_constructors"
   ],
   "note": "over the reals, given lapack_ok and the same symmetry of py3ode"
  },
  {
   "property": "C61",
   "status": "proved",
   "theorems": [
    "C61_refuted",
    "C61_fixed",
    "C61_fixed_distance",
    "C61_fixed_angle",
    "C61_pin",
    "C61_pin_history",
    "C61_hinge"
   ],
   "note": "the relied-on rigidity is refuted; exact drift per step and bounds over histories proved, over the reals, given lapack_ok"
  },
  {
   "property": "C62",
   "status": "proved",
   "theorems": [
    "C62_refuted",
    "C62_never_smaller",
    "C62_doubles",
    "C62_regularised",
    "C62_returns",
    "C62_factor_solve_reg",
    "C62_factor_solve_opposite"
   ],
   "note": "the relied-on convergence is refuted; exact recurrence, monotone growth, totality and exactness of the regularised solve proved over the reals, given lapack_ok"
  },
  {
   "property": "C63",
   "status": "proved",
   "theorems": [
    "C63_refuted",
    "C63_progress",
    "C63_smooth",
    "C63_depth"
   ],
   "note": "the relied-on progress is refuted by a binary64 run; proved with slack in the tolerance, over the reals, given lapack_ok, for pairs that include a circle"
  },
  {
   "property": "C64",
   "status": "proved",
   "theorems": [
    "C64_solutions",
    "C64_unique",
    "C64_exists",
    "C64_uniform",
    "C64_returned",
    "C64_no_contacts",
    "C64_lcp_unique",
    "C64_refuted",
    "C64_friction_refuted"
   ],
   "note": "existence in general and uniqueness with friction are refuted; solutions = responses, uniqueness, existence criterion and closeness without friction proved over the reals, given lapack_ok"
  },
  {
   "property": "C65",
   "status": "proved",
   "theorems": [
    "C65_answer",
    "C65_order",
    "C65_gradients"
   ],
   "note": "over the reals, given lapack_ok"
  },
  {
   "property": "C66",
   "status": "proved",
   "theorems": [
    "C66_broad_phase"
   ],
   "note": "circles only; over the reals, given lapack_ok and the contract of the broad phase"
  },
  {
   "property": "C67",
   "status": "proved",
   "theorems": [
    "C67_order"
   ],
   "note": "circles only; over the reals, given lapack_ok and the contract of the broad phase"
  },
  {
   "property": "C68",
   "status": "proved",
   "theorems": [
    "C68_rotation"
   ],
   "note": "circles only; over the reals, given lapack_ok and the contract of the broad phase"
  },
  {
   "property": "C69",
   "status": "proved",
   "theorems": [
    "C69_refuted",
    "C69_run_refuted",
    "C69_fixed_history",
    "C69_fixed_call",
    "C69_run_world",
    "C69_callbacks"
   ],
   "note": "exact landing in the first step and termination for any run_time are refuted; the exact sums, the one-ulp bound and termination proved for binary64 (Flocq, standard axioms of primitive floats)"
  },
  {
   "property": "C70",
   "status": "proved",
   "theorems": [
    "C70_refuted",
    "C70_overlap"
   ],
   "note": "the relied-on statement is refuted for hulls of the general kind by a binary64 world; proved over the reals for the named pairs, given the contract of the broad phase"
  },
  {
   "property": "C71",
   "status": "proved",
   "theorems": [
    "C71_refuted",
    "C71_overlap",
    "C71_during",
    "C71_circles"
   ],
   "note": "the relied-on statement is refuted by a binary64 run; the bounds proved over the reals, given the contract of the broad phase"
  },
  {
   "property": "C72",
   "status": "proved",
   "theorems": [
    "C72_refuted",
    "C72_steady",
    "C72_returned",
    "C72_restitution_refuted",
    "C72_friction_refuted"
   ],
   "note": "continuity of step() is refuted over the reals for the whole run; non-expansion of the velocities is proved for exact answers and, up to residuals, for returned ones; counterexamples for mixed restitutions and for friction"
  },
  {
   "property": "C73",
   "status": "proved",
   "theorems": [
    "C73_refuted",
    "C73_solver_refuted",
    "C73_group",
    "C73_combined",
    "C73_returned"
   ],
   "note": "the relied-on statement is refuted for steps by a binary64 run, and for the solver by another; proved over the reals for exact responses (with and without friction) and, up to residuals, for returned ones"
  },
  {
   "property": "C74",
   "status": "proved",
   "theorems": [
    "C74_reads",
    "C74_shown",
    "C74_returns",
    "C74_high_refuted",
    "C74_left_refuted",
    "C74_edge_refuted"
   ],
   "note": "three counterexamples (ball on the block line, ball beside the paddle, block at the right edge); exact reading proved for every readable scene and every frame that shows it, termination for every frame without a block at the edge"
  },
  {
   "property": "C75",
   "status": "proved",
   "theorems": [
    "C75_pair",
    "C75_wall",
    "C75_wall_first",
    "C75_central",
    "C75_collision",
    "C75_bounce",
    "C75_incline"
   ],
   "note": "for exact responses over the reals (C64 says when the engine has them and how close the returned velocities are)"
  },
  {
   "property": "C76",
   "status": "proved",
   "theorems": [
    "C76_paddle_refuted",
    "C76_angle_refuted",
    "C76_plan_refuted",
    "C76_layout",
    "C76_starts",
    "C76_screen",
    "C76_still",
    "C76_contacts",
    "C76_moves",
    "C76_no_exception",
    "C76_state",
    "C76_forward",
    "C76_plan",
    "C76_forward_no_exception",
    "C76_free_game",
    "C76_free_plan",
    "C76_run"
   ],
   "note": "the relied-on game is refuted (binary64 runs of the model); layout, stillness, contacts, free motion, state vector and absence of exceptions proved over the reals, given lapack_ok"
  },
  {
   "property": "C77",
   "status": "proved",
   "theorems": [
    "C77_session",
    "C77_response",
    "C77_constructors",
    "C77_forces",
    "C77_refuted"
   ],
   "note": "scaling of engine answers with contacts is refuted (binary64 run of the model); histories without contacts and the exact contact responses proved over the reals, given lapack_ok"
  },
  {
   "property": "C78",
   "status": "proved",
   "theorems": [
    "C78_cost",
    "C78_frames",
    "C78_coming",
    "C78_passed",
    "C78_otherwise",
    "C78_velocity",
    "C78_missing",
    "C78_vanishing",
    "C78_direction",
    "C78_free_plan",
    "C78_offscreen_refuted"
   ],
   "note": "that losing the ball is expensive is refuted; the cost matrices, the frames, the direction and the cost of plans in free rounds are proved; the MPC solver itself is a parameter"
  },
  {
   "property": "C79",
   "status": "proved",
   "theorems": [
    "C79_dalembert",
    "C79_rest",
    "C79_carried",
    "C79_returned",
    "C79_forever",
    "C79_beside",
    "C79_runs"
   ],
   "note": "exact responses and engine results without friction; whole runs without contacts"
  },
  {
   "property": "C80",
   "status": "proved",
   "theorems": [
    "C80_world",
    "C80_frames",
    "C80_run",
    "C80_impulse",
    "C80_loss",
    "C80_mass_refuted"
   ],
   "note": "that the loss tells masses apart is refuted for runs that end before the impact; the world, the frames before the impact and the loss are proved; the frames after the impact and the optimiser are not treated"
  },
  {
   "property": "C81",
   "status": "proved",
   "theorems": [
    "C81_step",
    "C81_response",
    "C81_single",
    "C81_weight",
    "C81_points",
    "C81_pair",
    "C81_turn",
    "C81_slows",
    "C81_slower",
    "C81_refuted"
   ],
   "note": "that an assembly nothing pushes keeps its spin is refuted; one rigid body in every step, with contacts, is proved; steps in a row with post-stabilisation off"
  },
  {
   "property": "C82",
   "status": "proved",
   "theorems": [
    "C82_error",
    "C82_converges",
    "C82_constant",
    "C82_parabola",
    "C82_energy_refuted"
   ],
   "note": "that free fall keeps the energy is refuted with the exact loss; the error bounds and the convergence are proved for runs without contacts"
  },
  {
   "property": "C83",
   "status": "proved",
   "theorems": [
    "C83_same_run",
    "C83_contacts",
    "C83_outline",
    "C83_hull_refuted",
    "C83_eps_refuted"
   ],
   "note": "that the callbacks may be exchanged is refuted twice (twice the contact distance, Hulls as discs); equality of whole runs is proved for strict worlds of circles without post-stabilisation. What ODE answers for two spheres is the specification sphere_answer; the candidate pairs are assumed to depend on the geoms only"
  },
  {
   "property": "C84",
   "status": "proved",
   "theorems": [
    "C84_step",
    "C84_discs",
    "C84_steps_return",
    "C84_run_ends",
    "C84_exact",
    "C84_wedge_refuted"
   ],
   "note": "that steps with friction always return is not claimed: C84_wedge_refuted shows a reachable state where some of the systems the solver may meet are singular (whether its iterates reach those weights is not decided); proved for contacts that are apart and do not wedge, and for whole runs of discs with one possible partner each"
  },
  {
   "property": "C85",
   "status": "proved",
   "theorems": [
    "C85_mirror",
    "C85_names",
    "C85_symmetric",
    "C85_on_the_axis",
    "C85_in_the_centre"
   ],
   "note": "circles only; over the reals, given lapack_ok and the contract of the broad phase"
  },
  {
   "property": "C86",
   "status": "proved",
   "theorems": [
    "C86_positions",
    "C86_position_gradient_refuted",
    "C86_velocity_gradient_refuted",
    "C86_mass_gradient",
    "C86_restitution_gradient",
    "C86_before"
   ],
   "note": "that gradients through a collision approximate the real ones is refuted; the derivative is the one of the simulated map (autograd itself is not modelled), with an engine that answers exactly"
  },
  {
   "property": "C87",
   "status": "proved",
   "theorems": [
    "C87_poses_alone",
    "C87_again",
    "C87_history_refuted"
   ],
   "note": "the plain claim is refuted for ties (floats, reference engine); proved without ties, over the reals, default contact callback"
  },
  {
   "property": "C88",
   "status": "proved",
   "theorems": [
    "C88_iteration",
    "C88_complementarity"
   ],
   "note": "over the reals, given lapack_ok; a zero direction component is the finding of C41"
  },
  {
   "property": "C89",
   "status": "proved",
   "theorems": [
    "C89_resume",
    "C89_discs",
    "C89_clock_refuted"
   ],
   "note": "the plain claim is refuted for forces that depend on time (floats, reference engine); proved with shifted force objects, over the reals"
  },
  {
   "property": "C90",
   "status": "proved",
   "theorems": [
    "C90_course",
    "C90_plateau",
    "C90_stuck",
    "C90_weak",
    "C90_shipped",
    "C90_report",
    "C90_report_refuted"
   ],
   "note": "over the reals; the report of the wrong round is also shown by running the model of the demo in floating point. The autograd gradient is a parameter"
  },
  {
   "property": "C91",
   "status": "proved",
   "theorems": [
    "C91_slides",
    "C91_rest_iff",
    "C91_incline",
    "C91_repose",
    "C91_returned",
    "C91_solved",
    "C91_level"
   ],
   "note": "over the reals, about the response (the solution of the problem the engine poses); C91_returned bounds the error of the point the solver returns, and C91_solved says the same of the velocities solve_dynamics returns"
  },
  {
   "property": "C92",
   "status": "proved",
   "theorems": [
    "C92_loss",
    "C92_identifies",
    "C92_gradient",
    "C92_step",
    "C92_course",
    "C92_learns",
    "C92_settled",
    "C92_handed_over",
    "C92_handed_over_refuted"
   ],
   "note": "over the reals; the game, the random numbers and what loss.backward() computes are parameters, RMSprop is modelled from its documentation"
  },
  {
   "property": "C93",
   "status": "proved",
   "theorems": [
    "C93_report",
    "C93_trail",
    "C93_gradient",
    "C93_truth_kept",
    "C93_found_refuted",
    "C93_positive_refuted",
    "C93_massless_refuted"
   ],
   "note": "over the reals; the derivatives autograd finds inside the simulator are a parameter, the derivative of MSELoss is computed; RMSprop is modelled from its documentation"
  },
  {
   "property": "C94",
   "status": "proved",
   "theorems": [
    "C94_slide",
    "C94_lands",
    "C94_grips"
   ],
   "note": "over the reals; the run after the landing is not treated"
  },
  {
   "property": "C95",
   "status": "proved",
   "theorems": [
    "C95_fall",
    "C95_runs",
    "C95_demo"
   ],
   "note": "over the reals; runs without contacts; the run of the demo after the landing is not treated"
  },
  {
   "property": "C96",
   "status": "proved",
   "theorems": [
    "C96_refuted",
    "C96_errors",
    "C96_relaxed",
    "C96_strict",
    "C96_exact"
   ],
   "note": "the relied-on claim fails for general hulls (C96_refuted, binary64); the rest over the reals, with a sane and complete broad phase, and exclusions declared on both bodies"
  },
  {
   "property": "C97",
   "status": "proved",
   "theorems": [
    "C97_depth"
   ],
   "note": "over the reals, with a sane and complete broad phase"
  },
  {
   "property": "C98",
   "status": "proved",
   "theorems": [
    "C98_turning",
    "C98_contacts",
    "C98_session"
   ],
   "note": "over the reals; the broad phase is assumed to report the same candidate pairs for the turned scene (bounding boxes are aligned with the axes, so a real broad phase may not, but C70 and C97 say which pairs matter)"
  },
  {
   "property": "C99",
   "status": "proved",
   "theorems": [
    "C99_chain",
    "C99_arrives"
   ],
   "note": "over the reals; up to the first contact"
  },
  {
   "property": "C100",
   "status": "proved",
   "theorems": [
    "C100_debug",
    "C100_debug_touches",
    "C100_fric",
    "C100_fric_near"
   ],
   "note": "over the reals; up to the first contact"
  },
  {
   "property": "C101",
   "status": "proved",
   "theorems": [
    "C101_starts",
    "C101_runs",
    "C101_discs",
    "C101_room",
    "C101_polygons_refuted",
    "C101_mirror"
   ],
   "note": "over the reals; two polygons need a strip along an edge of one of them"
  }
 ]
}