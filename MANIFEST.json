{
 "claims": [
  {
   "property": "C01",
   "status": "proved",
   "theorems": [
    "C01_step_accounting",
    "C01_max_steps_iff"
   ],
   "note": "All configurations; the characterisation of max_steps_reached assumes solver, controller and root finder do not themselves return it."
  },
  {
   "property": "C02",
   "status": "proved",
   "theorems": [
    "C02_clip_times",
    "C02_stepto_times",
    "C02_times_in_interval",
    "C02_pid_times"
   ],
   "note": "For every controller meeting the contract of base.py; the contract is discharged for the shipped controllers in the theorems of C17-C26."
  },
  {
   "property": "C03",
   "status": "proved",
   "theorems": [
    "C03_success_reaches_t1"
   ],
   "note": "All controllers but StepTo (see C26)."
  },
  {
   "property": "C04",
   "status": "proved",
   "theorems": [
    "C04_saveat_ts",
    "C04_early_stop_prefix",
    "C04_t0_equals_t1"
   ],
   "note": "No root finder (see C11), no time jumps (see C21)."
  },
  {
   "property": "C05",
   "status": "partial",
   "theorems": [
    "C05_storage",
    "C05_no_exception",
    "C05_no_storage_refuted"
   ],
   "note": "Storage never overflows or overwrites; no exception if each SubSaveAt has storage; refuted without storage (SaveAt(steps=2), max_steps=1)."
  },
  {
   "property": "C06",
   "status": "proved",
   "theorems": [
    "C06_saveat_steps"
   ],
   "note": ""
  },
  {
   "property": "C07",
   "status": "partial",
   "theorems": [
    "C07_saveat_t1_steps_partial",
    "C07_saveat_t1_partial",
    "C07_final_entry",
    "C07_no_final_value_refuted",
    "C07_saved_twice_refuted"
   ],
   "note": "The final entry for every combination of t0, ts and steps without a root finder (C07_final_entry), exact saved lists for t1 with steps; the two corner cases where the claim fails are exhibited, and what is saved with a root finder is C11_truncation."
  },
  {
   "property": "C08",
   "status": "proved",
   "theorems": [
    "C08_rejected_step",
    "C08_accepted_steps_run"
   ],
   "note": ""
  },
  {
   "property": "C09",
   "status": "proved",
   "theorems": [
    "C09_mask_count",
    "C09_mask_first"
   ],
   "note": ""
  },
  {
   "property": "C10",
   "status": "partial",
   "theorems": [
    "C10_first_crossing",
    "C10_initial",
    "C10_nan_triggers_on_rejected_refuted"
   ],
   "note": "For condition functions that are not NaN; refuted for NaN."
  },
  {
   "property": "C11",
   "status": "proved",
   "theorems": [
    "C11_event_time",
    "C11_root_function",
    "C11_truncation",
    "C11_nothing_after_final"
   ],
   "note": "The event time, final value, and the exact list of saved values, including the case of a full buffer."
  },
  {
   "property": "C12",
   "status": "partial",
   "theorems": [
    "C12_first_failure_wins",
    "C12_event_hides_error_refuted"
   ],
   "note": "Without events; refuted with events."
  },
  {
   "property": "C13",
   "status": "proved",
   "theorems": [
    "C13_observing_does_not_disturb"
   ],
   "note": ""
  },
  {
   "property": "C14",
   "status": "proved",
   "theorems": [
    "C14_subs_independent"
   ],
   "note": ""
  },
  {
   "property": "C15",
   "status": "partial",
   "theorems": [
    "C15_saved_values",
    "C15_dense_is_saveat_ts",
    "C15_outside",
    "C15_trivial",
    "C15_event_refuted",
    "C15_range"
   ],
   "note": "Without time jumps; after an event with a root finder the dense output is not truncated at the event time (refuted)."
  },
  {
   "property": "C16",
   "status": "partial",
   "theorems": [
    "C16_reflection",
    "C16_reflection_converse",
    "C16_event_refuted"
   ],
   "note": "All problems without events, or with events that ignore the time and have no root finder; refuted for events that look at the time. Uses functional extensionality."
  },
  {
   "property": "C17",
   "status": "partial",
   "theorems": [
    "C17_no_crossing_partial",
    "C17_stepped_to_partial",
    "C17_constructed",
    "C17_no_crossing_refuted"
   ],
   "note": "Full claim refuted (a step ending at the float before an element passes it). Proved up to one float and away from the last 100 floats before t1."
  },
  {
   "property": "C18",
   "status": "partial",
   "theorems": [
    "C18_steps_avoid_jumps_partial",
    "C18_jump_taken",
    "C18_near_t1_refuted",
    "C18_zero_length_step_refuted"
   ],
   "note": "Jumps three floats apart, not at t0 and not in the last 100 floats before t1; refuted otherwise. The made_jump flag is exact for every accepted step."
  },
  {
   "property": "C19",
   "status": "proved",
   "theorems": [
    "C19_hint_irrelevant"
   ],
   "note": ""
  },
  {
   "property": "C20",
   "status": "partial",
   "theorems": [
    "C20_rejected_ends_accepted_partial",
    "C20_not_passed_partial",
    "C20_no_internal_error_partial",
    "C20_overflow",
    "C20_internal_error_refuted"
   ],
   "note": "Every rejected end is later reached and not passed before; internal_error unreachable unless an attempt ends in the last 100 floats before t1, where it is exhibited."
  },
  {
   "property": "C21",
   "status": "partial",
   "theorems": [
    "C21_requested_times_saved_partial",
    "C21_requested_t1_refuted",
    "C21_order_refuted"
   ],
   "note": "The property as listed claims failure in two cases, both exhibited, and success otherwise, proved for jumps three floats apart and away from t0."
  },
  {
   "property": "C22",
   "status": "partial",
   "theorems": [
    "C22_step_size_change_partial",
    "C22_dtmin_dtmax_partial",
    "C22_initial",
    "C24_overflow_refuted"
   ],
   "note": "Scaled error not NaN. An overflowing step (solution and error both infinite) gives a NaN scaled error and NaN step sizes: C24_overflow_refuted."
  },
  {
   "property": "C23",
   "status": "proved",
   "theorems": [
    "C23_accept_iff",
    "C23_bad_error_rejected",
    "C23_scaled_error_not_nan"
   ],
   "note": "Exact characterisation; NaN and infinite errors are rejected for every norm that is infinite or NaN when a component is."
  },
  {
   "property": "C24",
   "status": "partial",
   "theorems": [
    "C24_rejections_bounded_partial",
    "C24_dtmin_reported",
    "C24_overflow_refuted",
    "C24_solve_terminates_partial",
    "C24_near_t1_refuted"
   ],
   "note": "Bound on consecutive rejections, and termination of whole solves with a resolved dtmin; refuted for NaN scaled errors and for dtmin below the float spacing near t1."
  },
  {
   "property": "C25",
   "status": "partial",
   "theorems": [
    "C25_steps",
    "C25_number_of_steps",
    "C25_exact",
    "C25_equal_steps",
    "C25_extra_step_refuted",
    "C25_not_constant_refuted"
   ],
   "note": "Schedule exact for every arithmetic; step count exact except where rounding makes an extra step (exhibited); constant only if dt0 divides t1-t0 (exhibited otherwise)."
  },
  {
   "property": "C26",
   "status": "proved",
   "theorems": [
    "C26_steps_partial",
    "C26_skipped_refuted"
   ],
   "note": "The statement's own exception (ts[-2] within 100 ULP of t1) is exhibited by the refuted theorem."
  },
  {
   "property": "C27",
   "status": "proved",
   "theorems": [
    "C27_stepto",
    "C27_const"
   ],
   "note": "Any number of steps; ConstantStepSize under the conditions in which C25_number_of_steps fixes n."
  },
  {
   "property": "C28",
   "status": "proved",
   "theorems": [
    "C28_step",
    "C28_shortcuts",
    "C28_solve",
    "C28_shipped_tableaus",
    "C36_stages"
   ],
   "note": "Over the reals (exact arithmetic). Every explicit solver built from AbstractRungeKutta, any number of terms, every tableau accepted by __post_init__; scan_kind is not modelled (all three run the same stages)."
  },
  {
   "property": "C29",
   "status": "proved",
   "theorems": [
    "C29_cache",
    "C29_cache_jumps",
    "C28_shortcuts",
    "C28_shipped_tableaus"
   ],
   "note": "Any controller that meets the contract and announces jumps; ClipStepSizeController is shown to. Implicit solvers: for root finders that report success only on exact roots."
  },
  {
   "property": "C30",
   "status": "partial",
   "theorems": [
    "C30_implicit_lipschitz",
    "C30_exact_methods",
    "C30_rounded_methods",
    "C30_dopri8",
    "C30_kencarp5_refuted",
    "C30_sil3_third_order_refuted",
    "C30_step",
    "C30_rounded_step",
    "C30_implicit_step",
    "C30_solvers",
    "C30_rounded_solvers"
   ],
   "note": "Real arithmetic, exact rational coefficients as written in the source. All shipped tableaus; KenCarp5 has one mistyped coefficient (refuted below 1e-12) and Sil3's documented third order in the explicit term is refuted (its declared order 2 holds). Local error O(h^(p+1)) is proved for all equations with a Taylor expansion at the start of the step; explicit solvers unconditionally, implicit ones if the stages found tend to the initial value, which they do for Lipschitz vector fields (C36_stages_near, C30_implicit_lipschitz)."
  },
  {
   "property": "C31",
   "status": "proved",
   "theorems": [
    "C31_exact_methods",
    "C31_sil3",
    "C31_rounded_methods",
    "C31_dopri8",
    "C30_step",
    "C30_rounded_step",
    "C30_implicit_step",
    "C30_solvers",
    "C30_rounded_solvers"
   ],
   "note": "As C30; the estimate is O(h^p) for a method of order p (Sil3: O(h^3))."
  },
  {
   "property": "C32",
   "status": "proved",
   "theorems": [
    "C32_two_half_steps",
    "C32_step",
    "C32_local_error"
   ],
   "note": "Exact arithmetic; any wrapped solver, number of steps and times. Finding (C36_half_solver_failure_refuted): the infinite error of a wrapped implicit solver is dropped."
  },
  {
   "property": "C33",
   "status": "proved",
   "theorems": [
    "C33_reversible",
    "C33_reversible_solve",
    "C33_embedded",
    "C33_jump_refuted"
   ],
   "note": "Exact arithmetic, any times, terms linear in the vector field with additive controls. C33_jump_refuted shows that the hypothesis about jumps is needed."
  },
  {
   "property": "C34",
   "status": "proved",
   "theorems": [
    "C34_invertible",
    "C34_symplectic"
   ],
   "note": "Exact arithmetic, any number of degrees of freedom and steps. Symplecticity is stated with velocities of curves, so needs no matrix calculus."
  },
  {
   "property": "C35",
   "status": "proved",
   "theorems": [
    "C35_symmetric",
    "C35_first_step"
   ],
   "note": "Exact arithmetic, any times."
  },
  {
   "property": "C36",
   "status": "proved",
   "theorems": [
    "C36_solve_towards_equilibrium",
    "C36_solves_contract",
    "C36_solve_decays",
    "C36_unique",
    "C36_stages_near",
    "C36_stages",
    "C36_implicit_euler",
    "C36_implicit_euler_b_stable",
    "C36_implicit_euler_stiff",
    "C36_solve",
    "C36_failures_retried",
    "C36_implicit_euler_failure_refuted",
    "C36_half_solver_failure_refuted",
    "C28_solve"
   ],
   "note": "Exact arithmetic, for root finders that report success only on exact roots. The two refuted theorems are findings: ImplicitEuler and HalfSolver keep a finite error estimate when the root find fails, so such steps can be accepted and end the solve, against the documentation of root_find_max_steps. For Lipschitz vector fields and small steps the root is unique, so that the step does not depend on the root finder (C36_unique)."
  },
  {
   "property": "C37",
   "status": "proved",
   "theorems": [
    "C37_result",
    "C37_at_least_two",
    "C37_accuracy"
   ],
   "note": "All functions, linear solvers and norms; floats with NaN and infinities but exact arithmetic. The driver loop (optimistix, external) may use any continuation rule based on what terminate returns."
  },
  {
   "property": "C38",
   "status": "proved",
   "theorems": [
    "C38_shipped_ends",
    "C38_linear_ends",
    "C38_linear_increment",
    "C38_third_order_ends",
    "C38_third_order_slopes",
    "C38_third_order_exact",
    "C38_fourth_order_ends",
    "C38_fourth_order_slopes",
    "C38_fourth_order_exact",
    "C38_increment_additive",
    "C38_zero_length"
   ],
   "note": "Over exact reals, per component. evaluate(a,b) of the linear interpolant on a zero-length interval (0/0) is excluded. C38_shipped_ends covers the interpolations of all shipped solvers, whose rounded coefficients miss y1 by up to the stated multiple of the stages."
  },
  {
   "property": "C39",
   "status": "partial",
   "theorems": [
    "C39_brackets",
    "C39_interval",
    "C39_missing",
    "C39_knots",
    "C39_convex",
    "C39_continuous",
    "C39_increments",
    "C39_increment_pytree_refuted"
   ],
   "note": "Data that is an array: all claims, for every knot sequence. For data in tuples, lists or dicts evaluate(a,b) raises (refuted)."
  },
  {
   "property": "C40",
   "status": "partial",
   "theorems": [
    "C40_smooth",
    "C40_causal",
    "C40_observations",
    "C40_gap_discontinuous_refuted",
    "C40_gap_derivative_refuted",
    "C40_replacement",
    "C40_replacement_refuted",
    "C40_fill_end_refuted"
   ],
   "note": "Without NaN: all claims. With NaN: values at observations; smoothness, replace_nans_at_start and fill_forward_nans_at_end as documented are refuted."
  },
  {
   "property": "C41",
   "status": "partial",
   "theorems": [
    "C41_fill_forward",
    "C41_observed",
    "C41_interior",
    "C41_leading",
    "C41_trailing",
    "C41_nothing_observed",
    "C41_replacement_refuted"
   ],
   "note": "All NaN patterns; one corner (nothing observed) refutes the documented replacement."
  },
  {
   "property": "C42",
   "status": "proved",
   "theorems": [
    "C42_shape",
    "C42_causal"
   ],
   "note": ""
  },
  {
   "property": "C43",
   "status": "proved",
   "theorems": [
    "C43_interval",
    "C43_covered",
    "C43_outside",
    "C43_trivial",
    "C43_ends"
   ],
   "note": "All sorted knots, repeated ones included; left and right."
  },
  {
   "property": "C44",
   "status": "proved",
   "theorems": [
    "C44_terminates",
    "C44_start",
    "C44_end",
    "C44_increment",
    "C44_additive",
    "C44_tolerance"
   ],
   "note": "All samples, tolerances and times, for BrownianIncrement, SpaceTimeLevyArea and SpaceTimeTimeLevyArea; exact real arithmetic; keys are split paths and samples an arbitrary function of the key. The only assumption about samplers is that a multivariate normal with zero covariance is its mean."
  },
  {
   "property": "C45",
   "status": "proved",
   "theorems": [
    "C45_covariance",
    "C45_increments",
    "C45_levy",
    "C45_levy_independent",
    "C45_levy_single",
    "C45_below_tolerance",
    "C45_unsafe"
   ],
   "note": "All real times that a grid point of the tolerance separates, not only dyadic ones, for any symmetric bilinear form under which samples at distinct keys are orthonormal (an instance is constructed). C45_levy, C45_levy_independent and C45_levy_single give the full joint covariance of increments and Levy areas. C45_below_tolerance shows that the restriction on times is needed. Gaussianity itself is not modelled."
  },
  {
   "property": "C46",
   "status": "partial",
   "theorems": [
    "C46_chen_H",
    "C46_chen_K",
    "C46_single",
    "C46_small_steps_refuted",
    "C46_single_refuted"
   ],
   "note": "Holds for gaps of at least eps of the interval (H) or sqrt(eps) (K). The refuted theorems are findings: K is zeroed for shorter steps, and H of a single time too, although eps would suffice."
  },
  {
   "property": "C47",
   "status": "proved",
   "theorems": [
    "C47_ode_term",
    "C47_control_term",
    "C47_multi_term",
    "C47_multi_contr",
    "C47_multi_bilinear",
    "C47_mixed_terms",
    "C47_wrap_twice",
    "C47_wrap_reflects",
    "C47_wrap_ode",
    "C47_multi_of_odes",
    "C47_multi_split",
    "C47_to_ode",
    "C47_backward_step"
   ],
   "note": "Over the reals; dense vector fields; complex values and lineax operators are not modelled."
  },
  {
   "property": "C48",
   "status": "proved",
   "theorems": [
    "C48_table",
    "C48_associative",
    "C48_history"
   ],
   "note": ""
  },
  {
   "property": "C49",
   "status": "partial",
   "theorems": [
    "C49_isolated",
    "C49_lines",
    "C49_increasing",
    "C49_early_stop_refuted",
    "C49_solve",
    "C49_tqdm"
   ],
   "note": "Isolation for all interleavings, line bounds for all batches, refresh count for tqdm; a solve of the loop model with a text meter. Strict increase holds when every element of the batch runs to its end (in particular without vmap) and is refuted when an element stops early. Progress is exact (rational); float rounding of linear_rescale is not modelled."
  },
  {
   "property": "C50",
   "status": "proved",
   "theorems": [
    "C50_every_gradient_once",
    "C50_calls",
    "C50_adjoint_equation"
   ],
   "note": "For all numbers of saved times, with and without saving t0. The backward solve between adjacent times is an oracle assumed exact; separately, solutions of the AdjointTerm equation are shown to be exact pullbacks (finite dimensional ODE). Discretisation error of the backward solves is not modelled."
  },
  {
   "property": "C51",
   "status": "partial",
   "theorems": [
    "C51_loop",
    "C51_finish_partial",
    "C51_rejected_step_refuted"
   ],
   "note": "The loop for all batches; the outcome if the last step of an element without event was accepted; refuted otherwise. The FSAL fast path is in C29."
  },
  {
   "property": "C52",
   "status": "partial",
   "theorems": [
    "C52_padding",
    "C52_backward_event_refuted"
   ],
   "note": "Forward solves, and backward ones without root finder; refuted for backward ones with."
  },
  {
   "property": "C53",
   "status": "partial",
   "theorems": [
    "C53_align_coefficients",
    "C53_should_coefficients",
    "C53_quicsort_coefficients",
    "C53_zero_friction",
    "C53_backward_refuted",
    "C53_coefficients_age",
    "C53_current_partial",
    "C53_drift_refuted",
    "C53_tiny_steps_refuted",
    "C53_batch_refuted",
    "C53_gradient_reused",
    "C53_jump",
    "C53_raises",
    "C53_align_exact",
    "C53_should_exact",
    "C53_quicsort_exact",
    "C53_align_reversible",
    "C53_local_error"
   ],
   "note": "ALIGN, ShOULD and QUICSORT: coefficient bounds on both sides of the threshold, exactness, local errors, reuse of the gradient and age of the coefficients along every history. Partial: that the coefficients are those of the current step is proved for step sizes that do not drift and refuted otherwise (drift, steps below 1e-12, batches); that they are accurate is refuted for backward solves."
  },
  {
   "property": "C54",
   "status": "proved",
   "theorems": [
    "C54_equations",
    "C54_additive_equations",
    "C54_zero_noise",
    "C54_constant_noise",
    "C54_time_dependent_noise",
    "C54_affine_noise_exact",
    "C54_shipped",
    "C54_additive_noise",
    "C54_multiplicative_noise",
    "C54_milstein",
    "C54_ito_stratonovich"
   ],
   "note": "Holds for all tableaus whose ignored stages are unused and whose weights are consistent; all six shipped tableaus are shown to qualify. Beyond the property as stated: time-dependent additive noise, local errors on linear equations with additive and multiplicative noise, and the Milstein and Euler-Heun methods. Strong convergence over many steps (a probabilistic statement) is not modelled."
  },
  {
   "property": "C55",
   "status": "proved",
   "theorems": [
    "C55_stop_and_resume"
   ],
   "note": "The resumed solve is given the step proposal as well (dt0)."
  },
  {
   "property": "C56",
   "status": "proved",
   "theorems": [
    "C56_saved_times_sorted"
   ],
   "note": ""
  },
  {
   "property": "C57",
   "status": "partial",
   "theorems": [
    "C57_automatic",
    "C57_first_step_given",
    "C57_first_step_bounds",
    "C57_none_is_a_hundredth",
    "C57_automatic_refuted"
   ],
   "note": "Proved of the selection function for an ODETerm (real arithmetic), with the bounds dtmin, dtmax and t1 for any first step. Refuted for diffeqsolve: it wraps every term in WrapTerm before asking the controller, the selection recognises only a bare ODETerm, and so dt0=None always means 0.01 (before dtmin, dtmax and t1)."
  },
  {
   "property": "C58",
   "status": "partial",
   "theorems": [
    "C58_step",
    "C58_implicit_step",
    "C58_solvers",
    "C58_implicit_solvers",
    "C58_conditions",
    "C58_documented_refuted"
   ],
   "note": "Real arithmetic, exact rational coefficients as written in the source; ODE terms. Local error over one step is proved for all solvers: order 2 for Heun and Sil3, 1 for Midpoint and Ralston, 3 for Bosh3, Kvaerno3/4/5, KenCarp4/5, 2 for KenCarp3, 4 for Dopri5 and Tsit5, 5 for Dopri8. Refuted: the documentation states order 2 for Midpoint and Ralston, 5 for Dopri5 and Tsit5 and 8 for Dopri8, if order q means a local error O(h^(q+1)) as it does for the solvers. For the first four the error is still O(h^q), so the statement can be defended as one about global error; Dopri8's is O(h^6) only. C58_step and C58_implicit_step state that the factor of the rounding of the coefficients depends on the equation only; C58_conditions gives order and rounding for each solver."
  },
  {
   "property": "C59",
   "status": "proved",
   "theorems": [
    "C59_solve",
    "C59_conditions",
    "C59_exact_solvers"
   ],
   "note": "Real arithmetic in space and in time (times of the loop are mapped to reals by an arbitrary function). ODE terms; explicit solvers, or implicit ones with exact roots, whose accepted steps succeed; vector fields Lipschitz, with Taylor expansions along the solution with uniform constants. The order of the dense output of Dopri8, Kvaerno5 and KenCarp5 is lower than that of the solver (C58), so that theirs is O(H^6), O(H^4) and O(H^4). C59_conditions gives the constants of C59_solve for all solvers; C59_exact_solvers combines both for those with exact coefficients."
  },
  {
   "property": "C60",
   "status": "proved",
   "theorems": [
    "C60_a_stable",
    "C60_l_stable",
    "C60_implicit_euler",
    "C60_solve"
   ],
   "note": "Real arithmetic; exact roots (the step reports success). Linear test equations with any number of independent complex components (a diagonalisable linear system in its eigenbasis). For the implicit-explicit solvers the explicit term is zero, as in the definition of stability. The rounding of the coefficients: an amplification by at most 1 + 10^-25 (KenCarp3), 1 + 10^-15 (KenCarp5), 1 (others); damping to 10^-10 (Kvaerno3, Kvaerno4, KenCarp5), 10^-15 (Kvaerno5), 10^-26 (KenCarp3), 0 (KenCarp4). B-stability of ImplicitEuler is C36_implicit_euler_b_stable."
  },
  {
   "property": "C61",
   "status": "partial",
   "theorems": [
    "C61_accepts_iff",
    "C61_returns",
    "C61_refused",
    "C61_normalised",
    "C61_stepto",
    "C61_make_sub",
    "C61_make_saveat",
    "C61_dt0_float",
    "C61_dt0_underflow_refuted"
   ],
   "note": "Types, shapes, dtypes and warnings are not modelled; whether the terms fit the solver is one boolean; user-defined controllers, adjoints and wrapping solvers are not modelled. Exact full statement (C61_accepts_iff) for arithmetic without underflow; in floating point the test on dt0 never rejects wrongly but is silent if (t1 - t0) * dt0 underflows (C61_dt0_underflow_refuted). Returning is proved for max_steps given (otherwise the solve may not end). Acceptable includes the refusals of HalfSolver over implicit and Runge-Kutta solvers stated in C62 and C63."
  },
  {
   "property": "C62",
   "status": "partial",
   "theorems": [
    "C62_adaptive_noise",
    "C62_error_order",
    "C62_half_scan_kind",
    "C62_is_sde",
    "C62_is_unsafe_sde",
    "C62_is_cde",
    "C62_wrapped",
    "C62_isinstance",
    "C62_isinstance_refuted",
    "C62_nested_euler_refuted",
    "C62_half_scan_kind_refuted"
   ],
   "note": "Partial because isinstance checks are forwarded through one wrapper only (C62_isinstance_refuted, C62_nested_euler_refuted) and HalfSolver of a Runge-Kutta method raises AttributeError with DirectAdjoint and ForwardMode (C62_half_scan_kind_refuted); everything else is proved for all trees and nestings."
  },
  {
   "property": "C63",
   "status": "partial",
   "theorems": [
    "C63_tolerances",
    "C63_not_implicit",
    "C63_half_implicit",
    "C63_half_implicit_refuted",
    "C63_nested_tolerances_refuted",
    "C63_steady_defined",
    "C63_steady_state"
   ],
   "note": "Partial because HalfSolver of an implicit solver always raises AttributeError (C63_half_implicit, C63_half_implicit_refuted) and two HalfSolvers leave the tolerances unset (C63_nested_tolerances_refuted). Norms are real-valued, comparisons exact."
  },
  {
   "property": "C64",
   "status": "partial",
   "theorems": [
    "C64_sound",
    "C64_complete",
    "C64_total",
    "C64_ambiguous",
    "C64_length",
    "C64_nested_refuted",
    "C64_plain_base_refuted",
    "C64_plain_ambiguous_refuted",
    "C64_annotated_refuted"
   ],
   "note": "Sound and complete for class statements whose type variables are direct arguments and bases are subscripted (C64_sound, C64_complete, C64_total, C64_ambiguous). Partial because the full statement is false: nested type variables are not substituted, bases without subscript are dropped beside subscripted ones or shadow each other, and Annotated gives other arguments (C64_*_refuted). TypeVarTuple and ParamSpec are not modelled."
  },
  {
   "property": "C65",
   "status": "partial",
   "theorems": [
    "C65_accept",
    "C65_refuse",
    "C65_default_kwargs",
    "C65_any",
    "C65_pair",
    "C65_imex",
    "C65_sde",
    "C65_srk",
    "C65_tuple_array",
    "C65_tuple_pair",
    "C65_count_refuted",
    "C65_tuple_refuted"
   ],
   "note": "Acceptance is exact (C65_accept and one theorem per kind of solver). Partial because the wrong number of terms gives an AssertionError (C65_count_refuted) and the tuple of earlier versions is refused unless y0 is itself a tuple (C65_tuple_array, C65_tuple_refuted). PyTrees are nested tuples; vector fields and controls are abstract values with isinstance."
  },
  {
   "property": "C66",
   "status": "partial",
   "theorems": [
    "C66_gradient",
    "C66_steady",
    "C66_split_refuted",
    "C66_steady_one",
    "C66_steady_sound",
    "C66_steady_split_refuted"
   ],
   "note": "Full statement for one term (C66_gradient, C66_steady, C66_steady_one). Partial because with several terms solver.func returns the tuple of vector fields, not their sum: the derivative is then wrong and the event misses steady states (C66_split_refuted, C66_steady_split_refuted; C66_steady_sound is what remains). Automatic differentiation of the vector field and the linear solver are represented by what they compute; the norm in the event is the root mean square in one dimension."
  },
  {
   "property": "C67",
   "status": "partial",
   "theorems": [
    "C67_gradient",
    "C67_fixed",
    "C67_saved",
    "C67_ends",
    "C67_adaptive_refuted"
   ],
   "note": "Full statement (C67_gradient, C67_fixed, C67_saved, C67_ends) of forward-mode differentiation, with JAX's rules for one step taken as parameters that are assumed right; reverse mode is the transpose of the same linear map, formed by JAX. Partial because with PIDController the result is not the derivative of the solve itself (C67_adaptive_refuted): stop_gradient is applied to the step size factor. Real arithmetic, no jumps, no events, t1 finite."
  },
  {
   "property": "C68",
   "status": "partial",
   "theorems": [
    "C68_inside",
    "C68_left",
    "C68_right",
    "C68_ends",
    "C68_outside",
    "C68_solution",
    "C68_trivial_refuted",
    "C68_integral",
    "C68_sides_refuted",
    "C68_step",
    "C68_implicit_step",
    "C68_solvers",
    "C68_implicit_solvers"
   ],
   "note": "Full statement for real arithmetic (C68_inside, C68_left, C68_right, C68_ends, C68_outside, C68_integral; accuracy in C68_step, C68_implicit_step, C68_solvers, C68_implicit_solvers). Partial because in a backward solve left is reversed (C68_sides_refuted) and because after a solve without steps the derivative at t0 is NaN although the value is y0 (C68_trivial_refuted). The derivative of a local interpolation is taken to be its derivative (jax.jvp)."
  },
  {
   "property": "C69",
   "status": "proved",
   "theorems": [
    "C69_prod_vf",
    "C69_linear",
    "C69_adjoint",
    "C69_expensive",
    "C69_no_leaves"
   ],
   "note": "C69_prod_vf, C69_linear, C69_adjoint, C69_expensive. Controls without arrays raise an error (C69_no_leaves). JAX's jvp and vjp of vf_prod are parameters, assumed to be the derivatives of the linear function; numbers are real."
  },
  {
   "property": "C70",
   "status": "partial",
   "theorems": [
    "C70_drift",
    "C70_diffusion",
    "C70_rejects",
    "C70_grad_structure",
    "C70_grad_shape_refuted",
    "C70_shared_noise_refuted"
   ],
   "note": "C70_drift, C70_diffusion, C70_rejects, C70_grad_structure. Partial because the shapes of grad_f's output are not checked, so that the vector field may have another shape than the state (C70_grad_shape_refuted), and because a Brownian motion of a smaller shape is broadcast, so that elements share their noise (C70_shared_noise_refuted)."
  },
  {
   "property": "C71",
   "status": "proved",
   "theorems": [
    "C71_ito",
    "C71_refinement",
    "C71_solve"
   ],
   "note": "C71_ito, C71_refinement, C71_solve. Brownian motion is a hypothesis on the second moments of its increments given the past; that VirtualBrownianTree fulfils it up to its tolerance is C44/C45. Exact arithmetic; the solution of the equation is characterised by its expansion over short times (Spec_Strong.ito_solution)."
  },
  {
   "property": "C72",
   "status": "proved",
   "theorems": [
    "C72_ito",
    "C72_stratonovich",
    "C72_additive",
    "C72_solve"
   ],
   "note": "C72_ito, C72_stratonovich, C72_additive, C72_solve. Brownian motion is a hypothesis on moments up to the fourth; the solution is characterised by its stochastic Taylor expansion, of which the product rule distinguishes Ito's and Stratonovich's integrals (Spec_Milstein). Exact arithmetic and exact forward-mode derivatives."
  },
  {
   "property": "C73",
   "status": "proved",
   "theorems": [
    "C73_ends",
    "C73_proportional_error",
    "C73_condition_needed",
    "C73_rk_error"
   ],
   "note": "C73_ends and C73_proportional_error on the loop with the PID controller (rationals with infinities and NaN; times are rounded, with an error that is negligible in the sense of Spec_PidEnd); C73_rk_error bounds the error estimate of Runge-Kutta steps over the reals; C73_condition_needed gives a solve that never ends when errors do not get small."
  },
  {
   "property": "C74",
   "status": "proved",
   "theorems": [
    "C74_accumulate",
    "C74_tolerance"
   ],
   "note": "C74_accumulate for every solver and controller of the loop model; C74_tolerance for the PID controller, which decides on floats modelled as rationals with infinities and NaN, while exact solutions live in any metric space of the reader's choice. That the estimate is reliable is a hypothesis: for a given equation it is a fact about the solver (the example proves it for Euler on y'=y)."
  },
  {
   "property": "C75",
   "status": "proved",
   "theorems": [
    "C75_stages",
    "C75_explicit_step",
    "C75_srk_general",
    "C75_srk_additive",
    "C75_euler",
    "C75_euler_heun",
    "C75_leapfrog",
    "C75_reversible_heun",
    "C75_stratonovich_milstein",
    "C75_ito_milstein",
    "C75_autonomous_rk",
    "C75_autonomous_euler_heun",
    "C75_autonomous_srk",
    "C75_autonomous_milstein",
    "C75_shipped",
    "C75_shipped_sde"
   ],
   "note": "Stage equations (C75_stages) for all Runge-Kutta methods, steps for explicit ones; for implicit methods the equations are shown to have the transformed solution, which the root finder finds if the solution is unique. Moving frames need nodes that equal row sums: C75_shipped lists the tableaus with this property exactly; dopri8, tsit5, kencarp3, kencarp5, kvaerno5 have it up to the rounding of their decimals. SemiImplicitEuler and the Langevin solvers are not covered, since their state is split. Real arithmetic."
  },
  {
   "property": "C76",
   "status": "proved",
   "theorems": [
    "C76_related",
    "C76_coordinates",
    "C76_interpolations",
    "C76_mixed_interpolations"
   ],
   "note": "C76_related holds for every solver and controller of the loop model. C76_coordinates is for explicit Runge-Kutta methods and a frame at rest; that the two controllers take the same decisions is a hypothesis (trivial for fixed steps; for PIDController see C79). Real arithmetic."
  },
  {
   "property": "C77",
   "status": "proved",
   "theorems": [
    "C77_euler",
    "C77_euler_heun",
    "C77_leapfrog",
    "C77_reversible_heun",
    "C77_srk",
    "C77_stratonovich_milstein",
    "C77_ito_milstein",
    "C77_half",
    "C77_implicit_euler",
    "C77_semi_implicit",
    "C77_methods",
    "C77_kept",
    "C77_total",
    "C77_total_steps"
   ],
   "note": "Whole solves incl. saved values and dense output for explicit Runge-Kutta methods and for the solvers without a Butcher tableau (stochastic ones included; SRK methods for additive noise and ReversibleHeun need a product linear in the vector field); for implicit and mixed methods at and between accepted steps, with an exact root finder; ImplicitEuler and SemiImplicitEuler per step. The dense output of all shipped methods is affine (C76_interpolations, C76_mixed_interpolations). Real arithmetic."
  },
  {
   "property": "C78",
   "status": "partial",
   "theorems": [
    "C78_ode_accepts",
    "C78_ode_value",
    "C78_control_accepts",
    "C78_control_value",
    "C78_control_real",
    "C78_control_is_ode",
    "C78_complex_refuted",
    "C78_diagonal",
    "C78_complex_diagonal_refuted",
    "C78_dtype"
   ],
   "note": "The parts about real vector fields hold; that a control term computes the matrix-vector product, that it agrees with an ODE term and with a weakly diagonal term is refuted for complex vector fields, since _prod conjugates the vector field (_term.py:268). Of the lineax operators only DiagonalLinearOperator is modelled; real arithmetic."
  },
  {
   "property": "C79",
   "status": "proved",
   "theorems": [
    "C79_scaled_error",
    "C79_init",
    "C79_adapt",
    "C79_solve",
    "C79_clip"
   ],
   "note": "Exact arithmetic (rationals with infinities and NaN); times are rounded, with the hypothesis that rounding commutes with the change of unit (powers of two, without overflow). One factor for all components, as atol is one number. That the solver's steps do not depend on units is a hypothesis of C79_solve, proved for Runge-Kutta methods in real arithmetic by C75."
  },
  {
   "property": "C80",
   "status": "proved",
   "theorems": [
    "C80_decisions",
    "C80_other_norms",
    "C80_solve"
   ],
   "note": "rms_norm is a parameter, PyTrees are lists of leaves; that a solver's step on the leading components does not involve the others is a hypothesis of C80_solve (proved for Runge-Kutta methods in real arithmetic by C75, the adjoint equation has this form: C50, C69). C80_other_norms shows that the seminorm is needed."
  },
  {
   "property": "C81",
   "status": "proved",
   "theorems": [
    "C81_unique",
    "C81_superposition",
    "C81_euler",
    "C81_euler_heun",
    "C81_leapfrog",
    "C81_reversible_heun",
    "C81_srk",
    "C81_stratonovich_milstein",
    "C81_ito_milstein",
    "C81_half",
    "C81_methods"
   ],
   "note": "Whole solves without events, in real arithmetic, by explicit Runge-Kutta methods (C81_superposition) and by the solvers without a tableau (C81_methods; SRK methods for additive noise and ReversibleHeun need a product linear in the vector field, the Milstein methods a differentiable diffusion and a correct jvp). Adaptive controllers choose other steps for other values and are excluded by value_free; implicit methods are not covered. C81_unique holds of every solver, controller and event."
  },
  {
   "property": "C82",
   "status": "proved",
   "theorems": [
    "C82_euler",
    "C82_implicit_euler",
    "C82_leapfrog",
    "C82_reversible_heun",
    "C82_declared",
    "C82_semi_implicit_euler",
    "C82_declared_semi_implicit",
    "C82_constant",
    "C82_dense"
   ],
   "note": "Constant step size, without jumps, ODE terms, real arithmetic; the bounds are explicit. C82_constant: a solve with ConstantStepSize makes the steps (steps, good_steps of Spec_Solvers) of which the bounds speak, if the floating point times of the schedule are equidistant; C82_dense: between the steps (linear interpolation). Orders of Runge-Kutta methods are C30 and C59, the strong order of the Milstein methods is C72; strong orders of other solvers are not covered."
  }
 ]
}