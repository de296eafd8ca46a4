{
 "claims": [
  {
   "property": "C01",
   "status": "proved",
   "theorems": [
    "C01_axis_of_period",
    "C01_period_of_axis",
    "C01_third_law",
    "C01_one_revolution"
   ],
   "note": ""
  },
  {
   "property": "C02",
   "status": "proved",
   "theorems": [
    "C02_semiparameter_of_axis",
    "C02_axis_of_semiparameter",
    "C02_axis_of_energy",
    "C02_kind",
    "C02_axis_sign",
    "C02_axis_of_shape",
    "C02_parabolic",
    "C02_rectilinear"
   ],
   "note": ""
  },
  {
   "property": "C03",
   "status": "proved",
   "theorems": [
    "C03_orthogonal",
    "C03_ecc_dot_position",
    "C03_orbit_equation"
   ],
   "note": ""
  },
  {
   "property": "C04",
   "status": "proved",
   "theorems": [
    "C04_periapsis_below",
    "C04_apoapsis_above",
    "C04_conic_bounds",
    "C04_attained",
    "C04_attained_only_at_periapsis",
    "C04_attained_only_at_apoapsis",
    "C04_every_radius_between",
    "C04_apsides_sum"
   ],
   "note": ""
  },
  {
   "property": "C05",
   "status": "proved",
   "theorems": [
    "C05_axis_roundtrip",
    "C05_semiparameter_roundtrip",
    "C05_apsides"
   ],
   "note": ""
  },
  {
   "property": "C06",
   "status": "proved",
   "theorems": [
    "C06_series_converges",
    "C06_one_family",
    "C06_branches_join",
    "C06_smooth_join"
   ],
   "note": ""
  },
  {
   "property": "C07",
   "status": "proved",
   "theorems": [
    "C07_derivative_chi",
    "C07_derivative_alpha"
   ],
   "note": ""
  },
  {
   "property": "C08",
   "status": "proved",
   "theorems": [
    "C08_recurrence",
    "C08_squares",
    "C08_addition"
   ],
   "note": ""
  },
  {
   "property": "C09",
   "status": "proved",
   "theorems": [
    "C09_parity",
    "C09_at_zero",
    "C09_units"
   ],
   "note": ""
  },
  {
   "property": "C10",
   "status": "proved",
   "theorems": [
    "C10_area_preserving"
   ],
   "note": ""
  },
  {
   "property": "C11",
   "status": "proved",
   "theorems": [
    "C11_rows_conserve"
   ],
   "note": ""
  },
  {
   "property": "C12",
   "status": "proved",
   "theorems": [
    "C12_radius"
   ],
   "note": ""
  },
  {
   "property": "C13",
   "status": "proved",
   "theorems": [
    "C13_time_zero"
   ],
   "note": ""
  },
  {
   "property": "C14",
   "status": "proved",
   "theorems": [
    "C14_rows_on_the_motion",
    "C14_position_error"
   ],
   "note": ""
  },
  {
   "property": "C15",
   "status": "proved",
   "theorems": [
    "C15_exists",
    "C15_deterministic",
    "C15_compose",
    "C15_reverse",
    "C15_kepler_is_the_flow"
   ],
   "note": ""
  },
  {
   "property": "C16",
   "status": "proved",
   "theorems": [
    "C16_unique_root",
    "C16_increasing",
    "C16_derivative",
    "C16_derivative_is_radius"
   ],
   "note": ""
  },
  {
   "property": "C17",
   "status": "proved",
   "theorems": [
    "C17_anomaly_recovered"
   ],
   "note": ""
  },
  {
   "property": "C18",
   "status": "proved",
   "theorems": [
    "C18_stm_is_derivative_of_flow"
   ],
   "note": ""
  },
  {
   "property": "C19",
   "status": "proved",
   "theorems": [
    "C19_identity_at_start",
    "C19_flow_field",
    "C19_chain_rule"
   ],
   "note": ""
  },
  {
   "property": "C20",
   "status": "proved",
   "theorems": [
    "C20_symplectic",
    "C20_inverse_is_reversed_arc"
   ],
   "note": ""
  },
  {
   "property": "C21",
   "status": "proved",
   "theorems": [
    "C21_row_depends_on_its_time_only",
    "C21_batch",
    "C21_solver"
   ],
   "note": ""
  },
  {
   "property": "C22",
   "status": "proved",
   "theorems": [
    "C22_elps_terminates",
    "C22_hypb_terminates",
    "C22_uni_terminates",
    "C22_elps_exit",
    "C22_hypb_exit",
    "C22_uni_exit",
    "C22_elps_default",
    "C22_hypb_default",
    "C22_uni_default"
   ],
   "note": ""
  },
  {
   "property": "C23",
   "status": "proved",
   "theorems": [
    "C23_converged_elliptic",
    "C23_stopped_early"
   ],
   "note": ""
  },
  {
   "property": "C24",
   "status": "proved",
   "theorems": [
    "C24_unique",
    "C24_near_mean_anomaly",
    "C24_increasing",
    "C24_equation_symmetry",
    "C24_solver_symmetry",
    "C24_derivative"
   ],
   "note": ""
  },
  {
   "property": "C25",
   "status": "proved",
   "theorems": [
    "C25_unique",
    "C25_odd",
    "C25_increasing",
    "C25_converged_hyperbolic",
    "C25_derivative"
   ],
   "note": ""
  },
  {
   "property": "C26",
   "status": "partial",
   "theorems": [
    "C26_converges_partial",
    "C26_refuted",
    "C26_refuted_any_limit"
   ],
   "note": "Proved for every M and 0 <= e <= 0.997 (residual <= 1e-6 within the default 20 steps). Refuted for every e in [0.9972, 1): for any tolerance in (0,1] and any iteration limit from 3 on (from 1 on if e >= 0.998) some M in [0, 1/20] exhausts the limit with a residual above 2. Open: eccentricities strictly between 0.997 and 0.9972."
  },
  {
   "property": "C27",
   "status": "partial",
   "theorems": [
    "C27_converges_partial",
    "C27_refuted"
   ],
   "note": "Proved (arguments below 1e308) for e >= 1.000125, for |N| >= 1/33 and for |N| <= 33 (e - 1). Refuted with default arguments for N = 1/186 and every e in (1, 1 + N^2] (residual above 100 after 50 steps), and for a corresponding range for any iteration limit. Open: the rest of the corner e - 1 < 1/8000, 33 (e - 1) < |N| < 1/33."
  },
  {
   "property": "C28",
   "status": "partial",
   "theorems": [
    "C28_elliptic_converges_partial",
    "C28_elliptic_converges_eccentric_partial",
    "C28_elliptic_rows_partial",
    "C28_parabolic_converges_partial",
    "C28_parabolic_refuted",
    "C28_hyperbolic_converges_partial",
    "C28_refuted",
    "C28_elliptic_refuted",
    "C28_refuted_distance"
   ],
   "note": "Proved for ellipses and every elapsed time when e <= 3/5 (at most 13 steps), when e <= 3/4, or when |sigma0| <= (3.6 (1-e) - 0.15) sqrt a, i.e. near enough to an apsis, up to e = 23/24 (at most 35 steps); for parabolas with (|tau0|+|tau|)(4+14 tau^2/p^3) <= 1e13 (tau0, tau: sqrt mu times the time since periapsis at start and end); for hyperbolas at moderate times (a bound of the same kind on the hyperbolic sine of the start and of mean anomaly/(e-1)). Refuted: for every parabolic or hyperbolic state, every tolerance and every iteration limit the loop exhausts its limit at all sufficiently late times with an arbitrarily large residual; for r0=(1,0,0), v0=(1,1,1), mu=1 kepler returns a distance of at least 1+t^2/4 for t >= 100 while the body is within 2t+1. Refuted for every elliptic state with 2 pi (1-e) sqrt a <= |sigma0| (possible from e = 0.863 on): for any iteration limit some positive time defeats it. Open: the ellipses between these two conditions, and the intermediate times on unbound orbits."
  },
  {
   "property": "C29",
   "status": "partial",
   "theorems": [
    "C29_first_step",
    "C29_far",
    "C29_refuted"
   ],
   "note": "False as stated. C29_first_step: a Newton step is made exactly when the starting guess is finite and in [-64, 64). C29_far: for |M| >= 66 (up to 2^126) and e in [0,1) the guess is returned unchanged whenever the sine is finite and in [-1,1]. C29_refuted: at M=100, e=1/2 Kepler's equation is then off by at least 1/50 for every sine accurate to 1/1024 at 100 and 200. Not modelled: fused multiply-add."
  },
  {
   "property": "C30",
   "status": "proved",
   "theorems": [
    "C30_right_handed",
    "C30_rotation",
    "C30_angles_add",
    "C30_inverse",
    "C30_periodic"
   ],
   "note": ""
  },
  {
   "property": "C31",
   "status": "proved",
   "theorems": [
    "C31_shape",
    "C31_plane",
    "C31_position",
    "C31_periapsis"
   ],
   "note": ""
  },
  {
   "property": "C32",
   "status": "partial",
   "theorems": [
    "C32_what_is_read",
    "C32_round_trip_partial",
    "C32_refuted",
    "C32_degenerate"
   ],
   "note": "False as stated: argument of periapsis and true anomaly come from atan2 with a non-negative first argument, so they are folded into [0, pi]. C32_what_is_read gives the exact result for all inputs, C32_round_trip_partial that the round trip holds exactly when both angles are at most pi, C32_refuted a witness, C32_degenerate the equatorial and circular cases."
  },
  {
   "property": "C33",
   "status": "partial",
   "theorems": [
    "C33_round_trip_partial",
    "C33_onto",
    "C33_same_elements",
    "C33_refuted"
   ],
   "note": "False as stated: C33_round_trip_partial shows that the state comes back exactly when the eccentricity vector has non-negative z component and r.v >= 0; C33_refuted is a witness where the position comes back negated."
  },
  {
   "property": "C34",
   "status": "proved",
   "theorems": [
    "C34_ranges",
    "C34_inclination_defined",
    "C34_node_direction"
   ],
   "note": ""
  },
  {
   "property": "C35",
   "status": "proved",
   "theorems": [
    "C35_transfer_angle",
    "C35_all_targets",
    "C35_motion"
   ],
   "note": ""
  },
  {
   "property": "C36",
   "status": "partial",
   "theorems": [
    "C36_arc_partial",
    "C36_motion_partial",
    "C36_short_arcs",
    "C36_long_arcs",
    "C36_half_revolution",
    "C36_all_positions",
    "C36_refuted"
   ],
   "note": "Proved for all orbits with e > 0 and all arcs other than half revolutions and arcs starting or ending at periapsis (C36_arc_partial by angles, C36_motion_partial for motions in time). The excluded cases are characterised exactly: a half revolution is always reported as passing, short arcs are taken without and long arcs with their end points. C36_refuted is a half revolution over apoapsis reported as passing perigee."
  },
  {
   "property": "C37",
   "status": "proved",
   "theorems": [
    "C37_conic",
    "C37_motion"
   ],
   "note": ""
  },
  {
   "property": "C38",
   "status": "proved",
   "theorems": [
    "C38_bound",
    "C38_largest",
    "C38_sharp"
   ],
   "note": ""
  },
  {
   "property": "C39",
   "status": "proved",
   "theorems": [
    "C39_gradient",
    "C39_inverse_square",
    "C39_divergence_free"
   ],
   "note": ""
  },
  {
   "property": "C40",
   "status": "proved",
   "theorems": [
    "C40_gradient_j2",
    "C40_gradient_j3",
    "C40_gradient_j4",
    "C40_divergence_free"
   ],
   "note": ""
  },
  {
   "property": "C41",
   "status": "proved",
   "theorems": [
    "C41_rotations_about_z",
    "C41_all_rotations",
    "C41_reflection",
    "C41_no_torque"
   ],
   "note": ""
  },
  {
   "property": "C42",
   "status": "proved",
   "theorems": [
    "C42_reads",
    "C42_errors",
    "C42_short",
    "C42_defaults"
   ],
   "note": ""
  },
  {
   "property": "C43",
   "status": "proved",
   "theorems": [
    "C43_sign",
    "C43_crossing"
   ],
   "note": ""
  },
  {
   "property": "C44",
   "status": "partial",
   "theorems": [
    "C44_forward",
    "C44_special_cases",
    "C44_acceptable",
    "C44_initial_step_refuted",
    "C44_to_final",
    "C44_custom_steps",
    "C44_step_rows",
    "C44_agrees_with_kepler",
    "C44_j2_field_conserves",
    "C44_defaults",
    "C44_default_args"
   ],
   "note": "Forwarding proved for all five wrappers. The one documented setting that is not met is the initial step of adaptive_steps (docstring: 1% of t1; no initial step is passed): C44_initial_step_refuted. The integrator itself is outside the model; results about returned rows assume an integrator that meets SpecInteg.follows."
  },
  {
   "property": "C45",
   "status": "proved",
   "theorems": [
    "C45_kepler_axes",
    "C45_exact_map_axes",
    "C45_integrals_axes",
    "C45_elements_axes",
    "C45_transition_axes",
    "C45_path_axes",
    "C45_exact_map_units",
    "C45_elements_units",
    "C45_kepler_time_unit"
   ],
   "note": ""
  },
  {
   "property": "C46",
   "status": "proved",
   "theorems": [
    "C46_elliptic",
    "C46_hyperbolic"
   ],
   "note": ""
  },
  {
   "property": "C47",
   "status": "proved",
   "theorems": [
    "C47_no_exception",
    "C47_finite_result",
    "C47_parabola"
   ],
   "note": ""
  },
  {
   "property": "C48",
   "status": "partial",
   "theorems": [
    "C48_coe2rv_shapes",
    "C48_broadcast_refuted",
    "C48_mu_column"
   ],
   "note": "False as documented: C48_coe2rv_shapes shows that coe2rv accepts its arguments exactly if all shapes are broadcast compatible and the shape of e broadcasts to that of the true anomaly, and gives the row-wise result then; C48_broadcast_refuted is the smallest compatible shape that is refused (two eccentricities, everything else a number)."
  },
  {
   "property": "C49",
   "status": "partial",
   "theorems": [
    "C49_tracing",
    "C49_jacfwd_fixed_anomaly",
    "C49_jacfwd_refuted"
   ],
   "note": "False as stated. C49_tracing: in every arithmetic kepler raises inside jax.jit and under jax.vmap over the state or mu, and is unaffected by mapping over times. C49_jacfwd_fixed_anomaly: forward mode in the state differentiates with the generalized anomaly held fixed. C49_jacfwd_refuted: for one revolution of the unit circle jvp returns -2 pi where the flow has -6 pi. Rests on the stated behaviour of Array.item() under tracing."
  },
  {
   "property": "C50",
   "status": "proved",
   "theorems": [
    "C50_conserved"
   ],
   "note": ""
  },
  {
   "property": "C51",
   "status": "partial",
   "theorems": [
    "C51_scaled_tolerance_partial",
    "C51_length_unit_refuted"
   ],
   "note": "False as stated: the convergence test compares a quantity of dimension length^(3/2) with the absolute number 1e-6. C51_length_unit_refuted: the parabola r0=(2,0,0), v0=(0,1,0), mu=1, t=100 expressed in a unit 1e6 times longer comes back unmoved. C51_scaled_tolerance_partial: the solver is exactly equivariant, for every input, when the tolerance is scaled along."
  },
  {
   "property": "C52",
   "status": "partial",
   "theorems": [
    "C52_elements_clean",
    "C52_state_clean",
    "C52_transition_clean",
    "C52_elliptic_clean",
    "C52_hyperbolic_clean",
    "C52_integrals_clean",
    "C52_gravity_clean",
    "C52_path_clean",
    "C52_kepler_flags",
    "C52_centre_flags",
    "C52_rectilinear_flags",
    "C52_asymptote_flags",
    "C52_negative_semiparameter_flags",
    "C52_wrong_conic_flags",
    "C52_parabola_flags",
    "C52_gravity_centre_flags",
    "C52_predicates_refuted",
    "C52_nan_elements",
    "C52_nan_state",
    "C52_nan_transition",
    "C52_nan_gravity",
    "C52_nan_solvers",
    "C52_negative_mu_refuted",
    "C52_apoapsis_refuted",
    "C52_asymptote_refuted",
    "C52_solvers_refuted",
    "C52_nan_tolerance_refuted",
    "C52_nan_state_solver_refuted"
   ],
   "note": "Flagged: every NaN in a state, mu, element, time or gravity parameter; start at the centre, negative mu in kepler, rectilinear angles, the asymptote itself, negative semiparameter, orb_period and mean anomalies of the wrong conic, parabola. Refuted as stated: rv2coe with mu < 0 returns finite elements with a negative semiparameter; radius_apoapsis of a hyperbola and equ_of_orbit beyond the asymptote return a negative number; the solvers accept the wrong conic at periapsis; a NaN tolerance, or a NaN r0 or sigma0 given to solve_kepler_uni, makes the solver return its starting guess; the two path predicates answer definitely at r = 0."
  },
  {
   "property": "C53",
   "status": "proved",
   "theorems": [
    "C53_orbit_formulas",
    "C53_kepler_formulas",
    "C53_universal_functions",
    "C53_universal_kepler"
   ],
   "note": ""
  },
  {
   "property": "C54",
   "status": "partial",
   "theorems": [
    "C54_vector_functions",
    "C54_rotation_matrices",
    "C54_rv2coe",
    "C54_mu_shape_refuted",
    "C54_sigma_table"
   ],
   "note": "Proved for a mu that is a scalar or has a trailing axis of length 1. Refuted for other compatible shapes of mu: C54_mu_shape_refuted (mu of shape (3,) is refused by rv2coe and divides each component by another mu in eccentricity_vector), C54_sigma_table (a flat list of mu in sigma_fn gives all combinations)."
  },
  {
   "property": "C55",
   "status": "proved",
   "theorems": [
    "C55_kepler",
    "C55_one_state",
    "C55_dxdx0",
    "C55_solvers_scalar",
    "C55_sigma_needs_item"
   ],
   "note": "A state is an array whose last axis has length 3; what kepler does with other lengths is not claimed. A batch is any array with an axis before the last whose length is not 1."
  },
  {
   "property": "C56",
   "status": "partial",
   "theorems": [
    "C56_orb_period",
    "C56_a_from_period",
    "C56_semimajor_axis",
    "C56_semiparameter",
    "C56_mean_motion",
    "C56_equ_of_orbit",
    "C56_equ_of_orb_uvi",
    "C56_radius_periapsis",
    "C56_radius_apoapsis",
    "C56_semipara_from_ae",
    "C56_a_from_pe",
    "C56_angular_momentum",
    "C56_eccentricity_vector",
    "C56_sigma_fn",
    "C56_ufunc0",
    "C56_ufunc1",
    "C56_ufunc2",
    "C56_ufunc3",
    "C56_ufunc4",
    "C56_ufunc5",
    "C56_lagrange_F",
    "C56_lagrange_G",
    "C56_lagrange_Ft",
    "C56_lagrange_Gt",
    "C56_kepler_equ_elps",
    "C56_kepler_equ_hypb",
    "C56_mean_anomaly_elps",
    "C56_mean_anomaly_hypb",
    "C56_generalized_anomaly",
    "C56_kepler_equ_uni",
    "C56_dchi",
    "C56_C_func",
    "C56_state_at_chi",
    "C56_rotmat3dx",
    "C56_rotmat3dy",
    "C56_rotmat3dz",
    "C56_coe2rv",
    "C56_inclination",
    "C56_right_ascension",
    "C56_node_vec",
    "C56_true_anomaly",
    "C56_argument_of_periapsis",
    "C56_rv2coe",
    "C56_point_mass",
    "C56_j2",
    "C56_j3",
    "C56_j4",
    "C56_nmax",
    "C56_zero_energy_refuted"
   ],
   "note": "Proved for every closed formula away from its singularities. Refuted for the alpha derivative of the universal functions at alpha = 0 (C56_zero_energy_refuted): the branch taken there is constant in alpha."
  },
  {
   "property": "C57",
   "status": "partial",
   "theorems": [
    "C57_time_derivative_partial",
    "C57_at_epoch",
    "C57_time_derivative_refuted",
    "C57_near_circular_partial",
    "C57_every_time_partial",
    "C57_guess_accepted"
   ],
   "note": "False as stated. C57_time_derivative_partial: the derivatives are the true ones times a factor given by a recursion over the Newton steps; C57_at_epoch: at t = 0 the factor is |alpha| r0; C57_time_derivative_refuted: so it is wrong for every state with |alpha| r0 <> 1. C57_near_circular_partial and C57_every_time_partial bound the factor at every time for e <= 1/4: within e of 1 if the guess is accepted, 7 (e/(1-e))^2 after one step, 9 (e/(1-e))^4 after two. C57_guess_accepted: on any orbit, wherever the starting guess is accepted, the factor is |alpha| times the returned distance (within e of 1 on ellipses, 0 on parabolas, at least e - 1 on hyperbolas). Missing: a bound on the factor once a Newton step was made, for e > 1/4 and for unbound orbits."
  },
  {
   "property": "C58",
   "status": "proved",
   "theorems": [
    "C58_universal",
    "C58_hyperbolic",
    "C58_elliptic"
   ],
   "note": ""
  },
  {
   "property": "C59",
   "status": "partial",
   "theorems": [
    "C59_refuted",
    "C59_hyperbolic_refuted",
    "C59_accurate",
    "C59_accurate_hyperbolic"
   ],
   "note": "False as stated: C59_refuted and C59_hyperbolic_refuted show a relative error of at least 1 for every math library, for alpha*chi^2 up to 2^-26 (ellipses) and -alpha*chi^2 up to 2^-27 (hyperbolas) with |alpha| <= 1, whenever the result is finite. C59_accurate: With a cosine (cosh) of absolute error delta the relative error is at most 9 delta/|alpha chi^2| + 42 * 2^-24, for |alpha| between 2^-100 and 1 and alpha*chi^2 between 2^-24 and 9 (hyperbolic: up to 1/2). Not covered: larger arguments and the values between the two ranges. For larger arguments C81 bounds the error relative to the size of the terms."
  },
  {
   "property": "C60",
   "status": "partial",
   "theorems": [
    "C60_first_step",
    "C60_far",
    "C60_refuted"
   ],
   "note": "False as stated. C60_first_step: a Newton step is made exactly when the starting guess is finite and in [-2^35, 2^35). C60_far: for |M| >= 2^35+2 (up to 2^1022) the guess is returned unchanged whenever the sine is finite and in [-1,1]. C60_refuted: for every sine accurate to 1/1024 there is an M near 5*10^10 where Kepler's equation with e=1/2 is off by at least 1/50. Not modelled: fused multiply-add."
  },
  {
   "property": "C61",
   "status": "proved",
   "theorems": [
    "C61_universal",
    "C61_hyperbolic",
    "C61_elliptic"
   ],
   "note": ""
  },
  {
   "property": "C62",
   "status": "partial",
   "theorems": [
    "C62_refuted",
    "C62_hyperbolic_refuted",
    "C62_accurate",
    "C62_accurate_hyperbolic"
   ],
   "note": "False as stated: relative error at least 1 for every math library, for alpha*chi^2 up to 2^-55 (hyperbolas 2^-56), whenever the result is finite. C62_accurate: With a cosine (cosh) of absolute error delta the relative error is at most 9 delta/|alpha chi^2| + 42 * 2^-53, for |alpha| between 2^-200 and 1 and alpha*chi^2 between 2^-53 and 9 (hyperbolic: up to 1/2). Not covered: larger arguments and the values between the two ranges. For larger arguments C81 bounds the error relative to the size of the terms."
  },
  {
   "property": "C63",
   "status": "partial",
   "theorems": [
    "C63_refuted",
    "C63_hyperbolic_refuted",
    "C63_accurate",
    "C63_accurate_hyperbolic"
   ],
   "note": "False as stated: relative error at least 1 for every math library, for alpha*chi^2 between 2^-100 and 2^-23 (hyperbolas 2^-27), whenever the result is finite. C63_accurate: With a sine (sinh) of absolute error delta and a finite result the relative error is at most 12 delta/|z|^3 + 20 * 2^-24 (hyperbolic 74 * 2^-24), z = sqrt|alpha| chi, for |alpha| between 2^-100 and 1 and z^2 between 2^-100 and 9 (hyperbolic: up to 1/2). Not covered: larger arguments, smaller z. For larger arguments C81 bounds the error relative to the size of the terms."
  },
  {
   "property": "C64",
   "status": "partial",
   "theorems": [
    "C64_refuted",
    "C64_hyperbolic_refuted",
    "C64_accurate",
    "C64_accurate_hyperbolic"
   ],
   "note": "False as stated: relative error at least 1 for every math library, for alpha*chi^2 between 2^-100 and 2^-52 (hyperbolas 2^-56), whenever the result is finite. C64_accurate: With a sine (sinh) of absolute error delta and a finite result the relative error is at most 12 delta/|z|^3 + 20 * 2^-53 (hyperbolic 74 * 2^-53), z = sqrt|alpha| chi, for |alpha| between 2^-200 and 1 and z^2 between 2^-100 and 9 (hyperbolic: up to 1/2). Not covered: larger arguments, smaller z. For larger arguments C81 bounds the error relative to the size of the terms."
  },
  {
   "property": "C65",
   "status": "proved",
   "theorems": [
    "C65_period",
    "C65_mean_motion",
    "C65_semiparameter",
    "C65_periapsis",
    "C65_apoapsis",
    "C65_anomaly_elps",
    "C65_anomaly_hypb",
    "C65_point_mass"
   ],
   "note": "Fused multiply-add and flushing of subnormals are not modelled."
  },
  {
   "property": "C66",
   "status": "proved",
   "theorems": [
    "C66_j2",
    "C66_j3",
    "C66_j4"
   ],
   "note": "The bound is relative to the factor in front of the bracket, not to the component itself, which can vanish. Fused multiply-add is not modelled."
  },
  {
   "property": "C67",
   "status": "partial",
   "theorems": [
    "C67_j3_refuted",
    "C67_j4_refuted"
   ],
   "note": "False as stated: for every position at a distance of 2^19 or more all three components of j3_acc and j4_acc are exactly zero in float32, because r**7 overflows to infinity; C67_exact and C67_float give a low Earth orbit in metres, where the exact J4 acceleration is below -10^-5 m/s^2."
  },
  {
   "property": "C68",
   "status": "proved",
   "theorems": [
    "C68_semimajor",
    "C68_semipara_from_ae",
    "C68_a_from_pe",
    "C68_equ_of_orbit",
    "C68_angular_momentum"
   ],
   "note": "Fused multiply-add and flushing of subnormals are not modelled."
  },
  {
   "property": "C69",
   "status": "partial",
   "theorems": [
    "C69_default",
    "C69_x64",
    "C69_integers_refuted"
   ],
   "note": "Refuted in part. By default (float32) ufunc2 to ufunc5 accept everything; ufunc0 and ufunc1 raise a TypeError for every integer chi, in both modes (C69_integers_refuted), because the parabolic branch returns chi's own dtype. C69_x64 is the exact table under jax_enable_x64, where mixed widths are rejected. Only dtypes are modelled in this layer (Dt.v); rests on jax's documented promotion rules and on the type check of lax.cond."
  },
  {
   "property": "C70",
   "status": "partial",
   "theorems": [
    "C70_default",
    "C70_x64",
    "C70_x64_mixed",
    "C70_refuted",
    "C70_solvers",
    "C70_array_tol_refuted"
   ],
   "note": "Proved by default (C70_default) and, under jax_enable_x64, for inputs without 32 bit arrays (C70_x64). Refuted under jax_enable_x64 for float32 times with a float64 state and for Python or integer times with a float32 state (C70_refuted); C70_x64_mixed is the exact table when mu is a Python number. C70_solvers holds for a Python tolerance; an array tolerance wider than the data is rejected (C70_array_tol_refuted). An array mu is covered by C70_default and C70_x64 only."
  },
  {
   "property": "C71",
   "status": "partial",
   "theorems": [
    "C71_integrals",
    "C71_vectors",
    "C71_kepler_equations",
    "C71_universal",
    "C71_solve_elps",
    "C71_solve_hypb",
    "C71_solve_uni",
    "C71_gravity",
    "C71_a_from_period_refuted"
   ],
   "note": "Proved for every function named in the statement except a_from_period, for which it is refuted: pi**2 is squared in double precision and then rounded, which differs from the square of the single precision pi by one unit (C71_a_from_period_refuted). Gravity is stated for float32 arrays in the args dictionary; with Python floats there the products of constants are taken in double precision. Rests on the promotion rules recorded in NumJ.v."
  },
  {
   "property": "C72",
   "status": "partial",
   "theorems": [
    "C72_apoapsis",
    "C72_periapsis",
    "C72_semiparameter",
    "C72_semimajor",
    "C72_anomalies",
    "C72_anomalies_int",
    "C72_parabola_refuted",
    "C72_big_mu_refuted"
   ],
   "note": "C72_apoapsis, C72_periapsis, C72_semiparameter, C72_semimajor say exactly when Python floats raise ZeroDivisionError and that otherwise the result is the float64 one. C72_anomalies, C72_anomalies_int: with Python numbers instead of arrays the anomaly conversions give the float64 array values. Refuted: on an exact parabola Python numbers raise ZeroDivisionError where arrays give an infinity (C72_parabola_refuted), and a Python int mu of 2^31 or more raises OverflowError as soon as it meets an array (C72_big_mu_refuted), e.g. 398600441800000. Python's ** is modelled as repeated multiplication."
  },
  {
   "property": "C73",
   "status": "partial",
   "theorems": [
    "C73_period",
    "C73_semiparameter",
    "C73_mean_anomaly",
    "C73_refuted"
   ],
   "note": "Refuted: powers wrap modulo 2^32. orb_period is right for a <= 1290, NaN for 1291 <= a <= 1625 and for a = 7000, zero for a = 2048 (C73_refuted); semiparameter is negative for h = 53000. C73_period, C73_semiparameter and C73_mean_anomaly describe the result for every int32 input."
  },
  {
   "property": "C74",
   "status": "proved",
   "theorems": [
    "C74_period",
    "C74_mean_motion",
    "C74_semiparameter",
    "C74_periapsis",
    "C74_apoapsis",
    "C74_anomaly_elps",
    "C74_anomaly_hypb",
    "C74_point_mass"
   ],
   "note": "Fused multiply-add and flushing of subnormals are not modelled."
  },
  {
   "property": "C75",
   "status": "proved",
   "theorems": [
    "C75_j2",
    "C75_j3",
    "C75_j4"
   ],
   "note": "The bound is relative to the factor in front of the bracket, not to the component itself, which can vanish. Fused multiply-add is not modelled."
  },
  {
   "property": "C76",
   "status": "proved",
   "theorems": [
    "C76_semimajor",
    "C76_semipara_from_ae",
    "C76_a_from_pe",
    "C76_equ_of_orbit",
    "C76_angular_momentum"
   ],
   "note": "Fused multiply-add and flushing of subnormals are not modelled."
  },
  {
   "property": "C77",
   "status": "proved",
   "theorems": [
    "C77_double",
    "C77_single",
    "C77_double_wide",
    "C77_single_wide"
   ],
   "note": "For 0 <= e <= 9/10; the exact-arithmetic result for larger e is C26. Fused multiply-add is not modelled."
  },
  {
   "property": "C78",
   "status": "proved",
   "theorems": [
    "C78_norm",
    "C78_momentum",
    "C78_sigma",
    "C78_eccentricity",
    "C78_size",
    "C78_norm_single",
    "C78_momentum_single",
    "C78_sigma_single",
    "C78_eccentricity_single",
    "C78_size_single"
   ],
   "note": "Sums are taken from left to right and not fused; flushing of subnormals is not modelled."
  },
  {
   "property": "C79",
   "status": "proved",
   "theorems": [
    "C79_short_way",
    "C79_perigee",
    "C79_low",
    "C79_revolutions",
    "C79_short_way_single",
    "C79_perigee_single",
    "C79_low_single",
    "C79_revolutions_single"
   ],
   "note": "Same arithmetic as C78. What the decisions mean in exact arithmetic is C35-C38."
  },
  {
   "property": "C80",
   "status": "proved",
   "theorems": [
    "C80_elements",
    "C80_elements_single"
   ],
   "note": "Products are not fused; the matrix-vector products are sums from left to right. Accuracy of sin and cos is a hypothesis."
  },
  {
   "property": "C81",
   "status": "proved",
   "theorems": [
    "C81_universal",
    "C81_universal_single",
    "C81_fourth_fifth",
    "C81_fourth_fifth_single",
    "C81_equation",
    "C81_equation_single",
    "C81_hyperbolic_equation",
    "C81_hyperbolic_equation_single"
   ],
   "note": "Same arithmetic as C80. The size used for U2 and U3 grows like 1/alpha near the parabola: the code's formulas do lose accuracy there."
  },
  {
   "property": "C82",
   "status": "proved",
   "theorems": [
    "C82_universal",
    "C82_universal_single",
    "C82_hyperbolic",
    "C82_hyperbolic_single"
   ],
   "note": "Says nothing about runs that reach max_iter. The elliptic solver is C77."
  },
  {
   "property": "C83",
   "status": "proved",
   "theorems": [
    "C83_state",
    "C83_state_single"
   ],
   "note": "The inputs chi, alpha, sigma0, r0 are taken as given; C86 combines this with C82."
  },
  {
   "property": "C84",
   "status": "partial",
   "theorems": [
    "C84_inputs",
    "C84_gradient",
    "C84_orb_period",
    "C84_a_from_period",
    "C84_semimajor_axis",
    "C84_semiparameter",
    "C84_mean_motion",
    "C84_equ_of_orbit",
    "C84_equ_of_orb_uvi",
    "C84_radius_periapsis",
    "C84_radius_apoapsis",
    "C84_semipara_from_ae",
    "C84_a_from_pe",
    "C84_angular_momentum",
    "C84_eccentricity_vector",
    "C84_sigma_fn",
    "C84_ufunc0",
    "C84_ufunc1",
    "C84_ufunc2",
    "C84_ufunc3",
    "C84_ufunc4",
    "C84_ufunc5",
    "C84_lagrange_F",
    "C84_lagrange_G",
    "C84_lagrange_Ft",
    "C84_lagrange_Gt",
    "C84_kepler_equ_elps",
    "C84_kepler_equ_hypb",
    "C84_mean_anomaly_elps",
    "C84_mean_anomaly_hypb",
    "C84_generalized_anomaly",
    "C84_kepler_equ_uni",
    "C84_dchi",
    "C84_C_func",
    "C84_state_at_chi",
    "C84_rotmat3dx",
    "C84_rotmat3dy",
    "C84_rotmat3dz",
    "C84_coe2rv",
    "C84_inclination",
    "C84_right_ascension",
    "C84_node_vec",
    "C84_true_anomaly",
    "C84_argument_of_periapsis",
    "C84_rv2coe",
    "C84_point_mass",
    "C84_j2",
    "C84_j3",
    "C84_j4",
    "C84_grad_kepler_equ",
    "C84_nmax",
    "C84_zero_energy_refuted"
   ],
   "note": "Proved for every closed formula away from its singularities, over exact reals. Refuted for the alpha derivative of the universal functions at alpha = 0 (C84_zero_energy_refuted): the branch taken there is constant in alpha. Rests on the stated backward rule of each jax primitive."
  },
  {
   "property": "C85",
   "status": "partial",
   "theorems": [
    "C85_solvers_raise",
    "C85_kepler_raises",
    "C85_jacrev_fixed_anomaly",
    "C85_jacrev_refuted"
   ],
   "note": "False as stated. C85_solvers_raise and C85_kepler_raises: the solvers raise in reverse mode exactly if an argument is differentiated, the propagator exactly if a time or mu is. C85_jacrev_fixed_anomaly: in the state the backward pass belongs to the state with the generalized anomaly held fixed. C85_jacrev_refuted: for one revolution of the unit circle it gives -2 pi where the flow has -6 pi. Rests on the stated behaviour of while_loop and Array.item() in reverse mode."
  },
  {
   "property": "C86",
   "status": "proved",
   "theorems": [
    "C86_kepler",
    "C86_kepler_single"
   ],
   "note": "A mixed forward-backward statement: the nearby data x', v', t' depend on the time. Assumes that the Newton run stops before max_iter, that the angular momentum is not tiny, and that the new radius is not tiny. The loss W for nearly radial states grows like 1/H. Unfused arithmetic."
  },
  {
   "property": "C87",
   "status": "proved",
   "theorems": [
    "C87_elements",
    "C87_elements_single",
    "C87_inclination",
    "C87_inclination_single",
    "C87_reading",
    "C87_reading_single"
   ],
   "note": "The angles are measured through the vectors they point along, so they say nothing when the node or the eccentricity vector is of the size of the rounding errors; C87_reading turns the measure into a bound on the angle. The right ascension may equal 2 pi after rounding (C87_full_turn). Unfused arithmetic, math library a hypothesis that C87_library shows can be met."
  },
  {
   "property": "C88",
   "status": "proved",
   "theorems": [
    "C88_elliptic_jvp"
   ],
   "note": "Eccentricities up to 0.996, exact arithmetic, default arguments. The bound is 46 millionths of (|dM|+|de|)/(1-e)^2; the derivative itself can be as large as 1/(1-e)."
  },
  {
   "property": "C89",
   "status": "partial",
   "theorems": [
    "C89_hyperbolic_jvp_refuted",
    "C89_lucky_guess_refuted",
    "C89_small_anomaly",
    "C89_guess_accepted",
    "C89_step_made_partial",
    "C89_step_condition",
    "C89_step_made_low_partial",
    "C89_hyperbolic_jvp_partial"
   ],
   "note": "False as stated. C89_hyperbolic_jvp_refuted: at N = 0 the derivative is 2/e instead of 1/(e-1), wrong for every e > 1 except 2. C89_lucky_guess_refuted: for every N > 0 with sinh N < 2N and e = 2N/sinh N the guess is the solution and its derivative is too large by the factor 2 - tanh N/N (24 percent at N = 1). C89_guess_accepted: the guess is differentiated whenever |N - arcsinh(2N/e)| <= 1e-6 (C89_small_anomaly: all |N| <= 1/3000000). C89_step_made_partial, C89_step_made_low_partial: otherwise the derivative is within 1.4 percent (e >= 2) or 9 percent (e >= 6/5) of (|dN| + |de| cosh H)/(e cosh H - 1) of the derivative of the solution; C89_step_condition: for e >= 2 this covers |N| >= 1/50. C89_hyperbolic_jvp_partial gives the returned derivative as a recursion over the Newton steps for every e > 1. Missing: a bound for 1 < e < 6/5 once a step was made."
  },
  {
   "property": "C90",
   "status": "proved",
   "theorems": [
    "C90_blocks",
    "C90_blocks_single",
    "C90_coefficients",
    "C90_coefficients_single"
   ],
   "note": "Magnitudes limited as in the hypotheses (2^60 for states in double precision, 2^17 and 2^8 in single). The errors are measured against the sum of the sizes of the terms, so entries that cancel are not claimed to be relatively accurate. Unfused arithmetic, sums from left to right."
  },
  {
   "property": "C91",
   "status": "proved",
   "theorems": [
    "C91_transition",
    "C91_transition_single"
   ],
   "note": "The blocks are compared with the exact formula at the computed alpha and generalised anomaly, whose own errors are bounded separately; the parabola alpha = 0 is excluded. In single precision the sizes of the coefficients are limited as well. The trigonometric library is a hypothesis that fine64_ok and fine32_ok show can be met."
  },
  {
   "property": "C92",
   "status": "proved",
   "theorems": [
    "C92_axis",
    "C92_axis_single",
    "C92_axis_python",
    "C92_round_trip",
    "C92_round_trip_single"
   ],
   "note": "The library's cube root is a hypothesis that C92_library shows can be met. Unfused arithmetic."
  },
  {
   "property": "C93",
   "status": "proved",
   "theorems": [
    "C93_rotations",
    "C93_rotations_single",
    "C93_radius_event",
    "C93_radius_event_single"
   ],
   "note": "The trigonometric library is a hypothesis that C93_one_radian shows can be met. Unfused arithmetic, sums from left to right."
  },
  {
   "property": "C94",
   "status": "partial",
   "theorems": [
    "C94_past_refuted",
    "C94_past_single_refuted",
    "C94_future",
    "C94_future_single"
   ],
   "note": "Refuted: -inf is returned for every anomaly below the threshold, in both precisions. Unfused arithmetic; N and e are arrays (with Python floats 2N/e is formed in double precision first). For e >= 6/5 and N between -2^18 e (single: -2^4 e) and 0, C110 and C112 show that the solver works; between the two thresholds, and for e < 6/5, the claim is undecided."
  },
  {
   "property": "C95",
   "status": "proved",
   "theorems": [
    "C95_kepler",
    "C95_dxdx0",
    "C95_kepler_single",
    "C95_dxdx0_single"
   ],
   "note": "A component equal to -0 may come back as +0. The library is asked to be exact at 0 only; C95_library shows one. Unfused arithmetic."
  },
  {
   "property": "C96",
   "status": "proved",
   "theorems": [
    "C96_kepler",
    "C96_dxdx0",
    "C96_elements",
    "C96_path_checks",
    "C96_gravity",
    "C96_kepler_single",
    "C96_dxdx0_single",
    "C96_elements_single",
    "C96_path_checks_single",
    "C96_gravity_single"
   ],
   "note": "For all inputs, NaN and infinities included; both precisions. Summation order of the three products in a norm or inner product is left to right, as modelled."
  },
  {
   "property": "C97",
   "status": "proved",
   "theorems": [
    "C97_kepler",
    "C97_dxdx0",
    "C97_kepler_single",
    "C97_dxdx0_single"
   ],
   "note": "Both precisions. The range of the state in kepler rules out a radius that rounds to a zero of uncertain sign; dxdx0 needs no range. The elliptic and hyperbolic solvers are not covered: their stopping tests and starts are not symmetric (C98, C94)."
  },
  {
   "property": "C98",
   "status": "partial",
   "theorems": [
    "C98_elliptic",
    "C98_start_refuted",
    "C98_elliptic_single",
    "C98_start_single_refuted"
   ],
   "note": "False exactly as stated: refuted at M = 63.54797, e = 1/2 (float32, 64 against -64.0099) and at M = 2^35 + 0.52956, e = 3/4 (float64). Proved for every M and e whose start is not exactly 64 or 2^35 in size; the cause is that the first previous value E0 + 2 tol is not symmetric."
  },
  {
   "property": "C99",
   "status": "proved",
   "theorems": [
    "C99_kepler",
    "C99_dxdx0",
    "C99_solver",
    "C99_kepler_single",
    "C99_dxdx0_single",
    "C99_solver_single"
   ],
   "note": "Bit for bit, both precisions, any library. The condition that no intermediate result comes near overflow or underflow is a computable one: the same program run in the guarded arithmetic Num_W returns Some. For kepler only the unit of time may change, because its tolerance 1e-6 carries a unit of length (C51); with the tolerance converted too, solve_kepler_uni is covered for both units. Lengths change by 4^l, since sqrt(mu) needs an even exponent."
  },
  {
   "property": "C100",
   "status": "proved",
   "theorems": [
    "C100_vectors",
    "C100_rv2coe",
    "C100_coe2rv",
    "C100_scalars",
    "C100_nmax",
    "C100_path",
    "C100_forces",
    "C100_vectors_single",
    "C100_rv2coe_single",
    "C100_coe2rv_single",
    "C100_scalars_single",
    "C100_nmax_single",
    "C100_path_single",
    "C100_forces_single"
   ],
   "note": "Bit for bit, both precisions. Condition as in C99. Right ascension, argument of periapsis and true anomaly need a library whose arctan2 ignores a common power of two (C100_library: any arctan2 computed from the quotient does)."
  },
  {
   "property": "C101",
   "status": "proved",
   "theorems": [
    "C101_apsides",
    "C101_orbit_range",
    "C101_periapsis",
    "C101_apoapsis",
    "C101_semiparameter_ae",
    "C101_period",
    "C101_mean_motion",
    "C101_a_from_period",
    "C101_semiparameter",
    "C101_semimajor_axis",
    "C101_mean_anomaly_time",
    "C101_mean_anomaly_size",
    "C101_residuals",
    "C101_residual_universal",
    "C101_below_minimum",
    "C101_revolutions",
    "C101_radius_event",
    "C101_point_mass",
    "C101_apsides_single",
    "C101_orbit_range_single",
    "C101_periapsis_single",
    "C101_apoapsis_single",
    "C101_semiparameter_ae_single",
    "C101_period_single",
    "C101_mean_motion_single",
    "C101_a_from_period_single",
    "C101_semiparameter_single",
    "C101_semimajor_axis_single",
    "C101_mean_anomaly_time_single",
    "C101_mean_anomaly_size_single",
    "C101_residuals_single",
    "C101_residual_universal_single",
    "C101_below_minimum_single",
    "C101_revolutions_single",
    "C101_radius_event_single",
    "C101_point_mass_single"
   ],
   "note": "Order is kept weakly: neighbouring arguments may give equal results. The mean anomaly in time, the residuals, the number of revolutions and the point mass are stated for results that are numbers (an overflowed factor times zero is a NaN)."
  },
  {
   "property": "C102",
   "status": "partial",
   "theorems": [
    "C102_angles",
    "C102_inclination",
    "C102_angles_single",
    "C102_right_ascension_single",
    "C102_single_refuted"
   ],
   "note": "Proved in double precision (C102_angles, C102_inclination). Refuted in single precision by two states (C102_single_refuted); C102_right_ascension_single says exactly when the right ascension reaches 2 pi, C102_angles_single bounds all three angles by twice the rounded pi."
  },
  {
   "property": "C103",
   "status": "proved",
   "theorems": [
    "C103_axis",
    "C103_semiparameter",
    "C103_parabola",
    "C103_one_period",
    "C103_axis_single",
    "C103_semiparameter_single",
    "C103_parabola_single",
    "C103_one_period_single"
   ],
   "note": ""
  },
  {
   "property": "C104",
   "status": "partial",
   "theorems": [
    "C104_exact",
    "C104_margin",
    "C104_refuted",
    "C104_margin_single",
    "C104_single_refuted"
   ],
   "note": "False in both precisions (C104_refuted, C104_single_refuted, witnesses a = 6601 and a = 6600 with mu = 398600; with every math library). True in exact arithmetic (C104_exact) and in floating point with a margin of 13 units of roundoff (C104_margin, C104_margin_single)."
  },
  {
   "property": "C105",
   "status": "partial",
   "theorems": [
    "C105_conic",
    "C105_parabola_refuted",
    "C105_conic_single",
    "C105_parabola_single_refuted"
   ],
   "note": "The signs are proved in both precisions (C105_conic, C105_conic_single); that an exactly parabolic state gives alpha = 0 is false (C105_parabola_refuted, C105_parabola_single_refuted), with every math library."
  },
  {
   "property": "C106",
   "status": "partial",
   "theorems": [
    "C106_rounded_is_flat",
    "C106_straight_line",
    "C106_parabola_refuted",
    "C106_rounded_is_flat_single",
    "C106_straight_line_single",
    "C106_parabola_single_refuted"
   ],
   "note": "False in both precisions (C106_parabola_refuted, C106_parabola_single_refuted): r = (10,0,0), v = (1,1,0), mu = 10, t = 2325/512 lies on a parabola through (55/4, 285/64, 0), kepler returns (7445/512, 2325/512, 0) up to rounding. The cause is proved in general (C106_straight_line, C106_rounded_is_flat)."
  },
  {
   "property": "C107",
   "status": "proved",
   "theorems": [
    "C107_kepler",
    "C107_dxdx0",
    "C107_elements",
    "C107_path_checks",
    "C107_gravity",
    "C107_quarter_turn",
    "C107_last_axes_differ",
    "C107_kepler_single",
    "C107_dxdx0_single",
    "C107_elements_single",
    "C107_path_checks_single",
    "C107_gravity_single",
    "C107_quarter_turn_single",
    "C107_last_axes_differ_single"
   ],
   "note": "Rests on the modelled order of the sums: the three products of a norm, an inner product and a matrix product are added from left to right. C107_last_axes_differ and C107_last_axes_differ_single show that the order matters: exchanging y and z instead is not exact (x = (1230.3, 6394.5, 371.6) in float64, (2942, 845, 2943) in float32)."
  },
  {
   "property": "C108",
   "status": "proved",
   "theorems": [
    "C108_kepler",
    "C108_dxdx0",
    "C108_solver",
    "C108_vectors",
    "C108_rv2coe",
    "C108_coe2rv",
    "C108_scalars",
    "C108_nmax",
    "C108_path",
    "C108_forces",
    "C108_forces_differ",
    "C108_kepler_single",
    "C108_dxdx0_single",
    "C108_solver_single",
    "C108_vectors_single",
    "C108_rv2coe_single",
    "C108_coe2rv_single",
    "C108_scalars_single",
    "C108_nmax_single",
    "C108_path_single",
    "C108_forces_single",
    "C108_forces_differ_single"
   ],
   "note": "Bit for bit, both precisions, any library. The condition is computable: the same program run in the guarded arithmetic Num_G returns Some. The factor of two makes the condition independent of whether the processor tests for a tiny result before or after rounding. The library functions are flushed at their arguments and results only. C108_forces_differ and C108_forces_differ_single show what happens without the condition."
  },
  {
   "property": "C109",
   "status": "proved",
   "theorems": [
    "C109_finite",
    "C109_default",
    "C109_finite_single",
    "C109_default_single"
   ],
   "note": "Both precisions, unfused arithmetic. Says nothing about how close the result is to the solution; that is C26 (exact) and C77 (e <= 3/4, rounded). The bound grows by k+2 binary digits for each step because one step may divide by 2^-(k+1)."
  },
  {
   "property": "C110",
   "status": "proved",
   "theorems": [
    "C110_double",
    "C110_double_before",
    "C110_single",
    "C110_single_before"
   ],
   "note": "Unfused arithmetic. For 6/5 <= e < 2 see C112; below 6/5 convergence is proved in exact arithmetic only (C27). For N below -2^18 e (single: -2^4 e) the claim is not made; from -2^26 e (-2^12 e) on it fails (C94)."
  },
  {
   "property": "C111",
   "status": "proved",
   "theorems": [
    "C111_ellipse",
    "C111_hyperbola",
    "C111_ellipse_single",
    "C111_hyperbola_single",
    "C111_hyperbola_near",
    "C111_hyperbola_near_single",
    "C111_ellipse_wide",
    "C111_ellipse_wide_single"
   ],
   "note": "Unfused arithmetic. Eccentricities between 9/10 and 6/5 are not covered (see C77 and C112)."
  },
  {
   "property": "C112",
   "status": "proved",
   "theorems": [
    "C112_double",
    "C112_double_before",
    "C112_single",
    "C112_single_before"
   ],
   "note": "Unfused arithmetic. For 1 < e < 6/5 convergence is proved in exact arithmetic only (C27). For N below -2^18 e (single: -2^4 e) the claim is not made; from -2^26 e (-2^12 e) on it fails (C94)."
  },
  {
   "property": "C113",
   "status": "proved",
   "theorems": [
    "C113_solver",
    "C113_stops",
    "C113_kepler",
    "C113_eccentricity",
    "C113_solver_single",
    "C113_stops_single",
    "C113_kepler_single",
    "C113_eccentricity_single"
   ],
   "note": "Unfused arithmetic. Eccentricities above 3/5 are proved in exact arithmetic only (C28, C57); hyperbolas and parabolas need the assumption that the loop stopped (C86). The velocity bound of C113_kepler grows with (1+|m|)^2, so in float32 it says little after many revolutions."
  }
 ]
}