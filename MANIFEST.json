{
 "claims": [
  {
   "property": "C01",
   "status": "proved",
   "theorems": [
    "C01_first_points_doubles",
    "C01_next_points_doubles",
    "C01_first_request_points",
    "C01_next_request_points",
    "C01_last_points_on_front"
   ],
   "note": "Exact arithmetic (extended reals), and IEEE doubles: every component shown is within 2^-51 (relative) of the exact combination, and on the last iteration is numerically equal to the front row. Stale requests and arbitrary histories included."
  },
  {
   "property": "C02",
   "status": "proved",
   "theorems": [
    "C02_number_of_points",
    "C02_first_number_of_points",
    "C02_number_kept",
    "C02_representatives"
   ],
   "note": "Any arithmetic. The clustering (scikit-learn) is an oracle that returns n valid row positions."
  },
  {
   "property": "C03",
   "status": "proved",
   "theorems": [
    "C03_bounds"
   ],
   "note": "For every arithmetic with lawful comparisons, hence for IEEE doubles."
  },
  {
   "property": "C04",
   "status": "proved",
   "theorems": [
    "C04_reachable_indices"
   ],
   "note": "Every arithmetic."
  },
  {
   "property": "C05",
   "status": "proved",
   "theorems": [
    "C05_session_length"
   ],
   "note": "Every arithmetic; answers are assumed not to raise, as in the property."
  },
  {
   "property": "C06",
   "status": "partial",
   "theorems": [
    "C06_final_solution_doubles",
    "C06_underflow_refuted",
    "C06_final_solution"
   ],
   "note": "Exact arithmetic. IEEE doubles: objective vector numerically a front row; decision vector of a row within 2^-536 of it, hence its own unless two rows are that close; C06_underflow_refuted shows the restriction is needed (squares underflow)."
  },
  {
   "property": "C07",
   "status": "proved",
   "theorems": [
    "C07_first_distance_doubles",
    "C07_next_distance_doubles",
    "C07_first_distance",
    "C07_next_distance"
   ],
   "note": "Exact arithmetic, and IEEE doubles with an explicit relative error bound (2k+10)2^-52 and exactly 100 on the last iteration."
  },
  {
   "property": "C08",
   "status": "proved",
   "theorems": [
    "C08_step_back_faithful",
    "C08_issued_request",
    "C08_step_back_accepted_iff"
   ],
   "note": "Every arithmetic."
  },
  {
   "property": "C09",
   "status": "partial",
   "theorems": [
    "C09_accepted_index_iff",
    "C09_index_validation_refuted",
    "C09_rejected_exception",
    "C09_valid_index_accepted_partial"
   ],
   "note": "False as stated: C09_index_validation_refuted shows that index = number of points always passes the validator and always raises IndexError. What holds: C09_accepted_index_iff and C09_valid_index_accepted_partial."
  },
  {
   "property": "C10",
   "status": "partial",
   "theorems": [
    "C10_new_count_used_partial",
    "C10_documented_key_refuted",
    "C10_zero_iterations_refuted"
   ],
   "note": "False as stated: the documented key is rejected and a count of 0 is accepted and then raises ZeroDivisionError after mutating the object. The used count is the given one (partial)."
  },
  {
   "property": "C11",
   "status": "proved",
   "theorems": [
    "C11_initial_validation"
   ],
   "note": "Every arithmetic."
  },
  {
   "property": "C12",
   "status": "proved",
   "theorems": [
    "C12_constructor"
   ],
   "note": "On shapes."
  },
  {
   "property": "C13",
   "status": "partial",
   "theorems": [
    "C13_progress_any_arithmetic",
    "C13_first_answer_any_arithmetic",
    "C13_rounding_safe_doubles",
    "C13_two_iterations_doubles",
    "C13_doubles_refuted",
    "C13_two_objective_progress"
   ],
   "note": "Proved in exact arithmetic, and in any arithmetic for sessions in which the points computed lie between the chosen point and the row (C13_progress_any_arithmetic); with doubles this holds for the last two steps and for rows below by a margin of n*2^-51 (C13_rounding_safe_doubles, C13_two_iterations_doubles). Refuted for doubles in general: with three iterations one rounding error makes every row unreachable and the session is stranded (C13_doubles_refuted). Clustering is an oracle that answers with n valid positions."
  },
  {
   "property": "C14",
   "status": "partial",
   "theorems": [
    "C14_three_objective_progress_refuted",
    "C14_progress_partial",
    "C14_progress_any_arithmetic_partial",
    "C14_lower_bounds_tell",
    "C14_choice_outcome_partial",
    "C14_within_reported_bounds",
    "C14_stranded_refuted",
    "C14_answer_raises_refuted"
   ],
   "note": "False for k >= 3, with IEEE doubles: a shown point worse than the chosen one; a choice after which no point is shown and every forward answer raises; a choice that raises ValueError. Proved for any number of objectives and any ordered arithmetic: the reported lower bounds tell which points have a front row below; choosing such a point gives a ValueError or a request with at least one point; every next point lies between the chosen point and a front row inside the reported bounds; if the reported upper bounds do not exceed the point the full property holds."
  },
  {
   "property": "C15",
   "status": "proved",
   "theorems": [
    "C15_stop_is_identity",
    "C15_bad_index_changes_nothing",
    "C15_no_response_changes_nothing",
    "C15_data_never_changes"
   ],
   "note": "Every arithmetic."
  },
  {
   "property": "C16",
   "status": "proved",
   "theorems": [
    "C16_counters",
    "C16_forward_counts_down",
    "C16_no_division_by_zero",
    "C16_first_request"
   ],
   "note": "State and every issued request; counters change by one per forward answer; no answer raises ZeroDivisionError."
  },
  {
   "property": "C17",
   "status": "proved",
   "theorems": [
    "C17_navigation_point_doubles",
    "C17_navigation_point"
   ],
   "note": "Exact arithmetic (XR) and IEEE doubles (every component within 2^-51*2^e of the exact step, equal to the projection's numbers on the last step); any history; the projection is a row of the supplied front."
  },
  {
   "property": "C18",
   "status": "proved",
   "theorems": [
    "C18_constant_preference_doubles",
    "C18_constant_preference",
    "C18_constant_preference_never_fails"
   ],
   "note": "Exact arithmetic; closed form for any number of answers, plus existence of such sessions of every length. IEEE doubles: after t steps within t*2^-49*2^e of the exact closed form, and the last point has the numbers of the front row."
  },
  {
   "property": "C19",
   "status": "proved",
   "theorems": [
    "C19_bounds_shrink",
    "C19_bounds_shrink_ieee_doubles"
   ],
   "note": "For any ordered number type incl. IEEE doubles; at least two objectives and a front inside [ideal, nadir]."
  },
  {
   "property": "C20",
   "status": "proved",
   "theorems": [
    "C20_forward_reachable_indices",
    "C20_every_request"
   ],
   "note": "After a forward answer for any bounds; for every issued request when the front lies inside [ideal, nadir]."
  },
  {
   "property": "C21",
   "status": "partial",
   "theorems": [
    "C21_back_restores_partial",
    "C21_forward_after_back_partial",
    "C21_same_as_before_refuted"
   ],
   "note": "Content restored exactly (C21_back_restores_partial); forward after back equal when both answers project anew; refuted in general: the last projection and reference point are not restored, so an answer equal to a later reference point reuses the later projection."
  },
  {
   "property": "C22",
   "status": "partial",
   "theorems": [
    "C22_accepts_exactly_partial",
    "C22_wrong_length_rejected_partial",
    "C22_rejection_partial",
    "C22_validation_refuted"
   ],
   "note": "Exact acceptance for reference points of the right length; refuted: NaN, broadcast length-1 reference points, speeds 5.5 / \"3\" are accepted; non-boolean flags raise TypeError."
  },
  {
   "property": "C23",
   "status": "partial",
   "theorems": [
    "C23_previous_bounds_partial",
    "C23_user_bounds_refuted"
   ],
   "note": "Refuted: bounds of an answer are stored after the projection is computed; partial: the bounds of the previous answer are respected."
  },
  {
   "property": "C24",
   "status": "partial",
   "theorems": [
    "C24_speed_of_first_answer_partial",
    "C24_speed_refuted"
   ],
   "note": "Refuted: speed is only stored in the first step; partial: exact value of the speed shown."
  },
  {
   "property": "C25",
   "status": "proved",
   "theorems": [
    "C25_stop"
   ],
   "note": "Any issued request, stale ones included."
  },
  {
   "property": "C26",
   "status": "proved",
   "theorems": [
    "C26_front_unchanged"
   ],
   "note": "Arrays live in an explicit heap in the model, so in-place NaN writes are visible."
  },
  {
   "property": "C27",
   "status": "proved",
   "theorems": [
    "C27_projection",
    "C27_projection_kept",
    "C27_no_admissible_row_fails"
   ],
   "note": "proper_asf: NaN rows have NaN value and front rows do not (true of PointMethodASF, proved for exact arithmetic)."
  },
  {
   "property": "C28",
   "status": "partial",
   "theorems": [
    "C28_any_arithmetic",
    "C28_doubles",
    "C28_doubles_refuted",
    "C28_two_objectives"
   ],
   "note": "Proved in exact arithmetic for any forward session without user bounds, and in any arithmetic for such sessions in which rounding does no harm (C28_any_arithmetic, which adds that no further answer can fail); with doubles a step is harmless when the rows below the navigation point are below by a margin of n*2^-51 (C28_doubles). Refuted for doubles in general: one rounding error in the first step makes every row unreachable; another reference point then raises ValueError and stopping returns no solution (C28_doubles_refuted)."
  },
  {
   "property": "C29",
   "status": "proved",
   "theorems": [
    "C29_wrong_request",
    "C29_protocol",
    "C29_end_is_absorbing"
   ],
   "note": "Any history of calls, with or without response; a failing call leaves the object unchanged."
  },
  {
   "property": "C30",
   "status": "proved",
   "theorems": [
    "C30_archive_grows",
    "C30_archive_aligned",
    "C30_shown_aligned"
   ],
   "note": "Also every solution shown in any request is shown with its own objective vector."
  },
  {
   "property": "C31",
   "status": "proved",
   "theorems": [
    "C31_nothing_lost"
   ],
   "note": "Any history; the handler never fails on a validated response."
  },
  {
   "property": "C32",
   "status": "proved",
   "theorems": [
    "C32_new_solutions"
   ],
   "note": "For every problem with finite data, over the extended reals and over IEEE doubles (the sign of a difference of finite doubles is exact, proved from Flocq). For an MOProblem the pairs are the solver's answers under the stated constraints."
  },
  {
   "property": "C33",
   "status": "partial",
   "theorems": [
    "C33_points_partial",
    "C33_uneven_ends_refuted",
    "C33_shown_not_distinct_refuted",
    "C33_points_doubles_partial"
   ],
   "note": "Proved (exact arithmetic): n distinct points strictly between, equally far apart, each projected to the front. In double-precision arithmetic: every point within relative error 2^-49 of the i/(n+2) point, all distinct and strictly between as soon as some component of the two solutions is not almost equal. Refuted: the gap to one end is twice the others, and the projections shown may coincide."
  },
  {
   "property": "C34",
   "status": "proved",
   "theorems": [
    "C34_first_solution_honours",
    "C34_feasible_if_levels_allow_current",
    "C34_low_level_finds_nothing"
   ],
   "note": "Extended reals and IEEE doubles. C34_low_level_finds_nothing shows the hypothesis on '>=' levels is needed: otherwise ValueError."
  },
  {
   "property": "C35",
   "status": "partial",
   "theorems": [
    "C35_exact_partial",
    "C35_missing_entry",
    "C35_length_refuted",
    "C35_number_refuted"
   ],
   "note": "Exact acceptance when there is one classification per objective and an integer number; refuted: the number of classifications is not checked, and 2.5 or NaN solutions are accepted."
  },
  {
   "property": "C36",
   "status": "partial",
   "theorems": [
    "C36_save",
    "C36_most_preferred",
    "C36_intermediate_partial",
    "C36_one_index_refuted"
   ],
   "note": "Save and preferred requests in full; intermediate requests: refuted for one index (accepted, IndexError), proved otherwise."
  },
  {
   "property": "C37",
   "status": "proved",
   "theorems": [
    "C37_chosen_solution"
   ],
   "note": "Any history."
  },
  {
   "property": "C38",
   "status": "proved",
   "theorems": [
    "C38_solutions",
    "C38_perturbed_points",
    "C38_perturbed_points_doubles"
   ],
   "note": "In full for any solver and any number type (weights, perturbed points, each solution a solution of its point); perturbed points q+|q-f|e_i exactly on real arithmetic. In double-precision arithmetic: each perturbed point differs from q only in its own component, within relative error (2k+10)*2^-53."
  },
  {
   "property": "C39",
   "status": "proved",
   "theorems": [
    "C39_no_index_error",
    "C39_continuing_never_fails",
    "C39_discrete_never_fails"
   ],
   "note": "No IndexError after any history incl. failing calls (solver assumed not to raise IndexError itself); with a solver that always answers, and with the bundled solver on finite data in exact arithmetic, accepted reference points never fail."
  },
  {
   "property": "C40",
   "status": "proved",
   "theorems": [
    "C40_accepted_indices",
    "C40_selected"
   ],
   "note": "In full; also: an answer to an older request returns the solution of the latest iteration."
  },
  {
   "property": "C41",
   "status": "partial",
   "theorems": [
    "C41_accepts_exactly",
    "C41_admissible_accepted_partial",
    "C41_worse_accepted_refuted"
   ],
   "note": "Exact characterisation of what is accepted. Refuted as stated: a point is rejected only if every component is worse than the nadir; a list instead of an array gives AttributeError, a missing solution_index KeyError."
  },
  {
   "property": "C42",
   "status": "partial",
   "theorems": [
    "C42_not_dominated_partial",
    "C42_dominated_refuted"
   ],
   "note": "Proved on exact data when no component of the reference point is positive. Refuted in general: weights q/(utopian-nadir) are negative for positive components and the worst row is returned."
  },
  {
   "property": "C43",
   "status": "partial",
   "theorems": [
    "C43_no_index_error",
    "C43_counters",
    "C43_total_is_last_asked",
    "C43_session_length",
    "C43_restart_refuted"
   ],
   "note": "Every arithmetic, every history in which the initial request is not answered again after it was handled (failing calls and stale requests included). C43_restart_refuted: answering it again raises IndexError. C43_total_is_last_asked: the total is the one asked for last. C43_session_length holds for both methods."
  },
  {
   "property": "C44",
   "status": "proved",
   "theorems": [
    "C44_convergence_doubles",
    "C44_convergence",
    "C44_last_point"
   ],
   "note": "Exact arithmetic, and IEEE doubles: the j-th point within j*2^-49*2^e of the exact closed form, the last one with the numbers of the solution, distance approximated with relative error (2k+10)2^-52."
  },
  {
   "property": "C45",
   "status": "partial",
   "theorems": [
    "C45_monotone",
    "C45_short_step",
    "C45_impairment_bound",
    "C45_impaired_refuted",
    "C45_doubles_partial",
    "C45_rounding_refuted"
   ],
   "note": "Exact arithmetic, both methods: C45_monotone, C45_short_step. The hypothesis on the optimizer is the property's; C45_impairment_bound: an exact minimizer of the achievement function impairs an objective by at most rho*k/w_i; C45_impaired_refuted: it can happen, with IEEE doubles. In IEEE doubles: C45_doubles_partial, every session, every step back included, is monotone up to 2 t 2^(e-49) after t answers (values within 2^e); exactly it fails by rounding (C45_rounding_refuted)."
  },
  {
   "property": "C46",
   "status": "partial",
   "theorems": [
    "C46_accepted_ranks",
    "C46_accepted_ranks_any",
    "C46_decimal_percentages_refuted",
    "C46_accepted_percentages",
    "C46_weights_partial",
    "C46_weights_refuted"
   ],
   "note": "False as stated: rank 0, negative ranks and percentages, too many entries are accepted (C46_weights_refuted). Exactly what is accepted: C46_accepted_ranks (C46_accepted_ranks_any in every arithmetic, doubles included), C46_accepted_percentages. With doubles, percentages with decimals that sum to 100 can be rejected (58.8, 24.9, 16.3: C46_decimal_percentages_refuted). Positive factors: C46_weights_partial."
  },
  {
   "property": "C47",
   "status": "partial",
   "theorems": [
    "C47_progress_partial",
    "C47_no_request_refuted"
   ],
   "note": "False as stated (C47_no_request_refuted): step back with short_step False and use_previous_preference True returns None; missing short_step raises KeyError; percentages as a list raise TypeError. For all other answers: C47_progress_partial."
  },
  {
   "property": "C48",
   "status": "partial",
   "theorems": [
    "C48_directions",
    "C48_unlinked_diverges",
    "C48_accepted_ratios_refuted"
   ],
   "note": "True for linked pairs (C48_directions, exact arithmetic; the loop ends after at most k passes). False as stated: C48_unlinked_diverges - some objective not linked to the first one, the loop never ends - and C48_accepted_ratios_refuted with concrete accepted ratios."
  },
  {
   "property": "C49",
   "status": "partial",
   "theorems": [
    "C49_no_index_error_partial",
    "C49_more_iterations_refuted"
   ],
   "note": "False as stated: raising the number of remaining iterations after the first step overflows the buffers (C49_more_iterations_refuted). Otherwise proved for every arithmetic (C49_no_index_error_partial)."
  },
  {
   "property": "C50",
   "status": "proved",
   "theorems": [
    "C50_convergence_doubles",
    "C50_convergence",
    "C50_last_point_is_final"
   ],
   "note": "Exact arithmetic, and IEEE doubles: the j-th point within j*2^-49*2^e of the exact closed form, the last one with the numbers of the solution, distance approximated with relative error (2k+10)2^-52."
  },
  {
   "property": "C51",
   "status": "proved",
   "theorems": [
    "C51_constraints",
    "C51_min_max",
    "C51_session"
   ],
   "note": "Exact arithmetic; linprog is an oracle with its specification (an optimum of the given program). Constraint equivalence for every reachable state (every history of calls), min-max optimality after any history, and in terms of what was said in the session."
  },
  {
   "property": "C52",
   "status": "proved",
   "theorems": [
    "C52_widens",
    "C52_encloses",
    "C52_adds_shown"
   ],
   "note": "Every arithmetic (reals or IEEE doubles without NaN), every history including failed calls."
  },
  {
   "property": "C53",
   "status": "partial",
   "theorems": [
    "C53_forward",
    "C53_back_partial",
    "C53_back_refuted"
   ],
   "note": "C53_forward: answers without step back. C53_back_partial: step back with a speed or after a forward move. C53_back_refuted: a second step back in a row without a speed moves forward again (the sign of the stored speed is flipped each time)."
  },
  {
   "property": "C54",
   "status": "partial",
   "theorems": [
    "C54_mapping",
    "C54_in_box_partial",
    "C54_length_refuted",
    "C54_single_refuted",
    "C54_in_box_refuted"
   ],
   "note": "C54_mapping for every arithmetic. In the box for sessions that start from a given solution (C54_in_box_partial); refuted otherwise (C54_in_box_refuted, concrete session), for the length of classifications (C54_length_refuted) and a single classification (C54_single_refuted: broadcast)."
  },
  {
   "property": "C55",
   "status": "partial",
   "theorems": [
    "C55_accepted",
    "C55_step",
    "C55_string_refuted",
    "C55_fraction_refuted",
    "C55_step_doubles"
   ],
   "note": "Accepted iff int(v) in 1..5. The step is in (0, 0.1] for integer speeds; refuted for numeric strings (TypeError) and fractions such as 5.9 (step 0.118). C55_step_doubles: the same in IEEE doubles (the step is speed/5/10 as rounded, above 0 and at most the double 0.1)."
  },
  {
   "property": "C56",
   "status": "partial",
   "theorems": [
    "C56_selected",
    "C56_settings_refuted"
   ],
   "note": "Every arithmetic; Delaunay, generate_polytopes and the dominance tests are oracles. C56_settings_refuted: Rule 2 ignores the epsilon and method given (the tests between polytopes always use the defaults)."
  },
  {
   "property": "C57",
   "status": "proved",
   "theorems": [
    "C57_reason"
   ],
   "note": "Every arithmetic, oracles as in C56."
  },
  {
   "property": "C58",
   "status": "partial",
   "theorems": [
    "C58_perturbate_partial",
    "C58_perturbed_refuted",
    "C58_advice_refuted"
   ],
   "note": "Refuted: perturbate writes an attribute nothing reads; approximate is unchanged by any number of perturbations, so following the advice of the exception does not help. What holds (C58_perturbate_partial): the noise is added to the outcomes as given, entry by entry, also after other calls (it does not accumulate), is stored apart, and the outcomes stay."
  },
  {
   "property": "C59",
   "status": "partial",
   "theorems": [
    "C59_table",
    "C59_failure_refuted",
    "C59_what_is_asked",
    "C59_true_ideal"
   ],
   "note": "For every lawful arithmetic and every oracle (C59_table); with an exact solver the first vector is the true ideal, exact numbers and doubles (C59_true_ideal). Refuted part: the success flag is ignored, so a failed optimisation enters the table (C59_failure_refuted)."
  },
  {
   "property": "C60",
   "status": "partial",
   "theorems": [
    "C60_aligned",
    "C60_single_variable_refuted",
    "C60_filter",
    "C60_pareto_optimal",
    "C60_dominated_refuted",
    "C60_what_is_asked"
   ],
   "note": "With exact numbers and an exact solver every row is Pareto optimal within the bounds. Refuted in general: with an approximate solver a strictly dominated row is returned (C60_dominated_refuted, doubles), because the test compares with all earlier rows at once; with one decision variable the array of variables has two columns."
  },
  {
   "property": "C61",
   "status": "partial",
   "theorems": [
    "C61_last_import_wins",
    "C61_names_exist",
    "C61_catches_own",
    "C61_nautilus_refuted",
    "C61_pareto_navigator_refuted"
   ],
   "note": "Name resolution of desdeo_mcdm/interactive/__init__.py. Proved for every method except NAUTILUS; refuted for NAUTILUS (the names of NautilusV2 replace its exception and request classes) and for the reference points of the Pareto Navigator (RPMException)."
  },
  {
   "property": "C62",
   "status": "partial",
   "theorems": [
    "C62_points_near_box_doubles",
    "C62_above_nadir_refuted",
    "C62_points_in_box"
   ],
   "note": "Proved in exact arithmetic, for histories with stale requests, step-backs and changed counts. With doubles a shown component leaves the box by at most T*2^(e-49), numbers up to 2^e and T requests so far (C62_points_near_box_doubles); C62_above_nadir_refuted: it does, by one rounding error, in a first request with five iterations."
  },
  {
   "property": "C63",
   "status": "proved",
   "theorems": [
    "C63_failed_answer"
   ],
   "note": "Any history."
  },
  {
   "property": "C64",
   "status": "proved",
   "theorems": [
    "C64_bounds"
   ],
   "note": "Any order-lawful number system, IEEE doubles included."
  },
  {
   "property": "C65",
   "status": "partial",
   "theorems": [
    "C65_construction",
    "C65_reported",
    "C65_one_entry_refuted"
   ],
   "note": "In full, except that a starting point with a single entry is accepted (refuted)."
  },
  {
   "property": "C66",
   "status": "partial",
   "theorems": [
    "C66_failed_iteration_refuted",
    "C66_continues_unharmed_partial"
   ],
   "note": "Refuted as stated (C66_failed_iteration_refuted). What holds is proved: the failed iteration only loses the choice among the solutions shown before; answering with a reference point gives what it would have given without the failure, and so does every later answer."
  },
  {
   "property": "C67",
   "status": "partial",
   "theorems": [
    "C67_inherited_partial",
    "C67_constraints_not_used_refuted"
   ],
   "note": "False: no constraint evaluator is passed to the optimizer of the achievement function; the session does not depend on the constraints at all (theorem for all problems), and a concrete session ends with a solution that violates the constraint. What holds (C67_inherited_partial): whatever is true of every solution the optimizer returns is true of the solution a session ends with, in any history with failing and repeated calls; so constraints hold when the optimizer itself observes them."
  },
  {
   "property": "C68",
   "status": "partial",
   "theorems": [
    "C68_last_request_ends_refuted",
    "C68_step_back_possible_partial",
    "C68_ends_after_n_steps_partial"
   ],
   "note": "False: the request shown with one iteration left always leads to the stop request, whatever the answer (unless it changes the number of iterations); theorem for all sessions. What holds: in a session that asks once for n iterations, a step back (short or full) is possible from every request shown before all n steps are taken, with the point it leads to (C68_step_back_possible_partial), and the session ends exactly when all n steps have been taken (C68_ends_after_n_steps_partial)."
  },
  {
   "property": "C69",
   "status": "partial",
   "theorems": [
    "C69_constructor_checks",
    "C69_exception",
    "C69_bad_arguments_refuted"
   ],
   "note": "C69_constructor_checks is the exact condition; C69_bad_arguments_refuted shows where it differs from the documented one (minimize is never looked at, TypeError instead of NautilusException, starting points worse in some objective)."
  },
  {
   "property": "C70",
   "status": "partial",
   "theorems": [
    "C70_failed_call_refuted",
    "C70_initial_request_partial",
    "C70_step_back_partial",
    "C70_step_forward_repair_partial"
   ],
   "note": "False: a failing step forward has already advanced the step counter; every later answer to the same request raises TypeError. What holds: a failing answer to the first request can be repeated as on a new object (C70_initial_request_partial), a failing step back leaves the object as it was (C70_step_back_partial), and a failing step forward can be repaired by a full step back with the intended preferences as long as two more steps are left (C70_step_forward_repair_partial)."
  },
  {
   "property": "C71",
   "status": "proved",
   "theorems": [
    "C71_reported_bounds",
    "C71_bounds_enclose",
    "C71_bounds_tighten"
   ],
   "note": "C71_reported_bounds for every arithmetic and every history; C71_bounds_enclose for every arithmetic and C71_bounds_tighten for every arithmetic with lawful comparisons (IEEE doubles included), both with exact epsilon-constraint optimizers."
  },
  {
   "property": "C72",
   "status": "partial",
   "theorems": [
    "C72_preferred_start",
    "C72_reference_start_refuted",
    "C72_data_start_refuted"
   ],
   "note": "Proved for a preferred solution; refuted for a reference point: the decision vector (problem) or the row number (data problem) is shown as current solution."
  },
  {
   "property": "C73",
   "status": "proved",
   "theorems": [
    "C73_shown_solution",
    "C73_stop",
    "C73_accept",
    "C73_data_closest"
   ],
   "note": "C73_shown_solution, C73_stop, C73_accept for every arithmetic; C73_data_closest over the reals."
  },
  {
   "property": "C74",
   "status": "partial",
   "theorems": [
    "C74_navigation_answered_partial",
    "C74_no_direction_refuted",
    "C74_continue",
    "C74_show_answered"
   ],
   "note": "Navigation: exact convex hull, exact total linprog, box enclosing the given solutions, a current solution with k components. Refuted before a direction has been given (TypeError)."
  },
  {
   "property": "C75",
   "status": "proved",
   "theorems": [
    "C75_failed_answer"
   ],
   "note": "Every arithmetic and every state."
  },
  {
   "property": "C76",
   "status": "proved",
   "theorems": [
    "C76_weakly_optimal"
   ],
   "note": "Exact arithmetic and linprog."
  },
  {
   "property": "C77",
   "status": "proved",
   "theorems": [
    "C77_attainable"
   ],
   "note": "Exact arithmetic and linprog."
  },
  {
   "property": "C78",
   "status": "partial",
   "theorems": [
    "C78_rejected_partial",
    "C78_accepted",
    "C78_reference_refuted"
   ],
   "note": "Proved for answers in which no reference point is looked at; refuted for reference points (RPMException, AttributeError)."
  },
  {
   "property": "C79",
   "status": "proved",
   "theorems": [
    "C79_approximation_grows",
    "C79_current_inside"
   ],
   "note": "Exact arithmetic, exact convex hull."
  },
  {
   "property": "C80",
   "status": "proved",
   "theorems": [
    "C80_order"
   ],
   "note": "Every arithmetic, oracles as in C56."
  },
  {
   "property": "C81",
   "status": "proved",
   "theorems": [
    "C81_outcomes_kept"
   ],
   "note": "Exact arithmetic and exact dominance tests."
  },
  {
   "property": "C82",
   "status": "proved",
   "theorems": [
    "C82_inherently_nondominated",
    "C82_maximal"
   ],
   "note": "Exact arithmetic and exact dominance tests; this is the D-maximal inherently nondominated set that the documentation promises."
  },
  {
   "property": "C83",
   "status": "proved",
   "theorems": [
    "C83_constructor",
    "C83_approximate"
   ],
   "note": "Every arithmetic."
  },
  {
   "property": "C84",
   "status": "partial",
   "theorems": [
    "C84_selects_objective",
    "C84_selects_objective_f64",
    "C84_infinite_refuted"
   ],
   "note": "Exact numbers and doubles. Refuted when another objective is infinite or NaN (0 * inf = NaN)."
  },
  {
   "property": "C85",
   "status": "partial",
   "theorems": [
    "C85_two_objectives",
    "C85_attained",
    "C85_three_objectives_refuted"
   ],
   "note": "Proved for two objectives and, with unique single-objective optima, attainment for any number; exact numbers and doubles. Refuted from three objectives on (C85_three_objectives_refuted)."
  },
  {
   "property": "C86",
   "status": "partial",
   "theorems": [
    "C86_harmless_constraints_partial",
    "C86_ignored_refuted",
    "C86_infeasible_refuted"
   ],
   "note": "False: the constraint evaluator is never passed to the solver (C86_ignored_refuted), an exact solver returns an infeasible solution (C86_infeasible_refuted). What holds (C86_harmless_constraints_partial): if every solution Pareto optimal within the bounds satisfies the constraints, all returned solutions are Pareto optimal for the constrained problem."
  },
  {
   "property": "C87",
   "status": "partial",
   "theorems": [
    "C87_kept_partial",
    "C87_first_failure_refuted"
   ],
   "note": "Proved if the optimisation for the first reference point succeeds; refuted if it fails: the result is empty (np.all over an empty selection is True, and only i < 1 is exempted)."
  },
  {
   "property": "C88",
   "status": "proved",
   "theorems": [
    "C88_reference_points",
    "C88_no_other_points",
    "C88_covers",
    "C88_corners"
   ],
   "note": "Exact arithmetic; math.ceil exact."
  },
  {
   "property": "C89",
   "status": "partial",
   "theorems": [
    "C89_computed",
    "C89_none_refuted",
    "C89_partly_infinite_refuted"
   ],
   "note": "Proved for points that are infinite in all entries. Refuted for None, the default (TypeError), and for points that are infinite in some entries only (exception)."
  },
  {
   "property": "C90",
   "status": "partial",
   "theorems": [
    "C90_accepted",
    "C90_rejected",
    "C90_lengths_refuted",
    "C90_zero_step",
    "C90_negative_step"
   ],
   "note": "Proved, except that different lengths of ideal and nadir raise ValueError (C90_lengths_refuted)."
  },
  {
   "property": "C91",
   "status": "partial",
   "theorems": [
    "C91_plots",
    "C91_same_session",
    "C91_failure",
    "C91_nothing_to_choose_from",
    "C91_never_fails_partial",
    "C91_empty_list",
    "C91_plot_fails_refuted"
   ],
   "note": "Every arithmetic and problem with at least two objectives; C91_same_session: the session with plots is a session of C29-C37. Refuted part: half an intermediate solution (0.5) is accepted, shows an empty list, and the plot of the next request raises ValueError (pandas, one-dimensional empty array); C91_failure, C91_empty_list: the only way."
  },
  {
   "property": "C92",
   "status": "partial",
   "theorems": [
    "C92_arrays_left_alone",
    "C92_one_array_not_heard",
    "C92_same_answers_refuted"
   ],
   "note": "Proved for arrays that are not written into after they were part of an answer. Refuted otherwise: the method keeps the array object and compares the next answer with it, so a decision maker who edits one array in place is ignored after the first step (C92_one_array_not_heard, for all such sessions; C92_same_answers_refuted: witness)."
  },
  {
   "property": "C93",
   "status": "proved",
   "theorems": [
    "C93_carried_out_iff"
   ],
   "note": "Any arithmetic with exact signs of differences (doubles and reals: C93_hypotheses_met); decision vectors of equal length and find_closest in range are hypotheses about the data problem."
  },
  {
   "property": "C94",
   "status": "proved",
   "theorems": [
    "C94_can_finish",
    "C94_can_finish_any_problem",
    "C94_archived_can_be_chosen",
    "C94_last_request_may_be_dead"
   ],
   "note": "Any arithmetic. The answers exhibited: all objectives free, save nothing, no intermediate solutions, choose. C94_last_request_may_be_dead: the last request returned need not be the one to answer."
  },
  {
   "property": "C95",
   "status": "partial",
   "theorems": [
    "C95_rejected_answer",
    "C95_last_accepted_answer_is_used",
    "C95_unanswered",
    "C95_histories_nimbus",
    "C95_histories_rpm",
    "C95_histories_nautilus",
    "C95_histories_enautilus",
    "C95_histories_navigator",
    "C95_histories_pareto",
    "C95_checked_answers_refuted"
   ],
   "note": "Any arithmetic. Refuted part: C95_checked_answers_refuted, a dictionary edited after it was accepted is acted on although its request refuses it. A method returning the request it was given is taken to return a new one; Navigator stop requests are not answered."
  },
  {
   "property": "C96",
   "status": "proved",
   "theorems": [
    "C96_enautilus_contents",
    "C96_navigator_contents"
   ],
   "note": "Any arithmetic (order laws for the Navigator)."
  },
  {
   "property": "C97",
   "status": "proved",
   "theorems": [
    "C97_navigator_constructor",
    "C97_accepted_is_setup"
   ],
   "note": "0-d arguments raise IndexError; shapes only, entries are not examined by the code."
  },
  {
   "property": "C98",
   "status": "partial",
   "theorems": [
    "C98_constructor_checks",
    "C98_exception",
    "C98_bad_arguments_refuted"
   ],
   "note": "C98_constructor_checks is the exact condition; C98_bad_arguments_refuted shows where it differs from the documented one (the length of minimize is never looked at; TypeError instead of RPMException)."
  },
  {
   "property": "C99",
   "status": "partial",
   "theorems": [
    "C99_weakly_optimal",
    "C99_documented_functions",
    "C99_short_classification_refuted"
   ],
   "note": "C99_weakly_optimal: any arithmetic, any history, achievement functions that prefer better rows. C99_documented_functions: the documented formulas satisfy this in exact arithmetic when classifications have one entry per objective and demand less than the nadir of every objective not classified free. False without that: a too short classification is accepted and the STOM solution shown is dominated in every objective (C99_short_classification_refuted, doubles)."
  },
  {
   "property": "C100",
   "status": "partial",
   "theorems": [
    "C100_navigator_partial",
    "C100_nimbus_save_preferred",
    "C100_nimbus_intermediate_partial",
    "C100_nimbus_classification_partial",
    "C100_rpm_partial",
    "C100_nautilus_partial",
    "C100_own_exception_refuted"
   ],
   "note": "Exactly which other exceptions occur, per method: TypeError for non-bool flags (Navigator), non-numeric counts or a single level (NIMBUS), IndexError for too many classes (NIMBUS), AttributeError/KeyError/TypeError (RPM), KeyError/TypeError/IndexError (NAUTILUS); save and most-preferred answers of NIMBUS are always rejected properly. E-NAUTILUS: C09_rejected_exception; Pareto Navigator: C78."
  },
  {
   "property": "C101",
   "status": "partial",
   "theorems": [
    "C101_redirects_partial",
    "C101_small_objectives_refuted",
    "C101_redirects_refuted"
   ],
   "note": "Refuted: np.allclose ignores changes below 1e-8 + 1e-5|old|; with objectives of magnitude 5e-9 no answer after the first one is ever used (all sessions, exact reals; doubles witness). Partial: exactly which answers redirect the navigation."
  },
  {
   "property": "C102",
   "status": "partial",
   "theorems": [
    "C102_initial_request",
    "C102_next_request",
    "C102_one_component_per_objective_refuted"
   ],
   "note": "Every arithmetic. Exactly what is accepted is proved; as stated it is false: too many components, NaN components and ratios, and entries naming one or three objectives pass (C102_one_component_per_objective_refuted). NAUTILUS 1 preferences: C46."
  },
  {
   "property": "C103",
   "status": "proved",
   "theorems": [
    "C103_nothing_happens",
    "C103_pareto_navigator"
   ],
   "note": "Every arithmetic, every state. E-NAUTILUS: C15_no_response_changes_nothing."
  },
  {
   "property": "C104",
   "status": "proved",
   "theorems": [
    "C104_same_reference_point"
   ],
   "note": "For every arithmetic with the order laws, every problem (data or continuous with any optimizer that is a function), all pairs of histories."
  },
  {
   "property": "C105",
   "status": "proved",
   "theorems": [
    "C105_row_order"
   ],
   "note": "Exact extended reals (so that equal values are the same value); all permutations, all parallel histories. C105_ties_matter (doubles) shows that the proviso is needed: with a tie the first solution in the front is followed."
  },
  {
   "property": "C106",
   "status": "proved",
   "theorems": [
    "C106_nautilus",
    "C106_nautilus2",
    "C106_nautilus_solution"
   ],
   "note": "Any arithmetic with the order laws (data of the Reference Point Method after a failed answer and of Pareto Navigator: exact extended reals). NAUTILUS: a session without failing answers ends with the solution of the last iteration and its objective vector (C106_nautilus_solution); after a failing one the slot may be empty. E-NAUTILUS: the point must have k components, which can only fail when an earlier step back supplied arrays of another width. Reference Point Method right after a failed answer: one answer may stop without a solution (RStop None None in C106_rpm_hypotheses_met), two give a solution. Hypotheses that a solver or the data be usable are in the statements."
  },
  {
   "property": "C107",
   "status": "proved",
   "theorems": [
    "C107_start",
    "C107_show",
    "C107_navigation",
    "C107_continue",
    "C107_no_success",
    "C107_constructor"
   ],
   "note": "Every arithmetic, no hypothesis on the solvers. C107_start, C107_show, C107_navigation, C107_continue: what can be raised; C107_no_success, C107_constructor: the converse."
  },
  {
   "property": "C108",
   "status": "proved",
   "theorems": [
    "C108_full_step_back",
    "C108_first_answer"
   ],
   "note": "Every arithmetic, every optimizer that is a function of its arguments, any state of the object (C108_full_step_back) and a new object (C108_first_answer). When a full step back leads to an iteration point is C68."
  },
  {
   "property": "C109",
   "status": "partial",
   "theorems": [
    "C109_grid_partial",
    "C109_upper_corner_refuted"
   ],
   "note": "Doubles, math.ceil exact (f64_ceil_exact). Proved if eps is at least 2^-48 of the size of the numbers, there are at most 2^52 steps per axis and nothing is extremely large or small; refuted without: eps = 1e-6 is lost next to 1e11 and the upper corner is not used."
  },
  {
   "property": "C110",
   "status": "partial",
   "theorems": [
    "C110_fresh_session_partial",
    "C110_without_plots",
    "C110_same_current",
    "C110_empty_list_refuted"
   ],
   "note": "Proved for every reachable state and every list of answers by a simulation: C110_fresh_session_partial for the method with its plots, C110_without_plots for the session without them, C110_same_current for two sessions. Missing/false: when the session with the empty archive lists no solution at all, making the plot of the next request raises ValueError there and not in the other session (C110_empty_list_refuted; the same fault as C91)."
  },
  {
   "property": "C111",
   "status": "partial",
   "theorems": [
    "C111_constants_partial",
    "C111_documented_function",
    "C111_noticeable_changes",
    "C111_unnoticed_change_refuted"
   ],
   "note": "Exact extended reals; all constants, all parallel histories, any achievement function that ignores constants (C111_documented_function: the documented one does). The proviso same_changes (a change of the reference point counts in both or in neither) is needed: np.allclose compares with 1e-5 of the value, and C111_unnoticed_change_refuted (doubles) shows two answers that redirect the navigation in one object and are ignored after 2^20 is added to both objectives. C111_noticeable_changes gives a checkable sufficient condition."
  },
  {
   "property": "C112",
   "status": "proved",
   "theorems": [
    "C112_units",
    "C112_final_solution"
   ],
   "note": "Exact (extended real) arithmetic; the clustering is an oracle, and the hypothesis on it (corresponding rows are picked) is part of the claim: k-means in other units may of course cluster differently. Front with one value per objective in each row and one decision vector per row."
  },
  {
   "property": "C113",
   "status": "proved",
   "theorems": [
    "C113_constants",
    "C113_documented_functions",
    "C113_counterpart"
   ],
   "note": "Exact extended reals, NAUTILUS and NAUTILUS 2, all constants, all parallel histories (restarts and unanswered requests included), any optimizer that finds the same points for the moved reference points (C113_documented_functions: so do optimizers that only see the values of the documented achievement function and ignore a constant added to what they minimize). C113_counterpart: every session has its moved counterpart."
  },
  {
   "property": "C114",
   "status": "partial",
   "theorems": [
    "C114_accepted",
    "C114_constants_refuted"
   ],
   "note": "The same answers are accepted (C114_accepted, all constants). Refuted for the solutions: the weights are the reference point divided by (utopian - nadir), so they depend on where the zero of an objective is; data (1,1), (2,2) and the same data minus 4 lead to different rows (C114_constants_refuted, doubles)."
  },
  {
   "property": "C115",
   "status": "partial",
   "theorems": [
    "C115_constants_partial",
    "C115_start",
    "C115_documented_functions",
    "C115_unclassified_refuted",
    "C115_accepted_nadir_refuted"
   ],
   "note": "Proved for all histories, all constants, problems given by data or by a minimizer, with exact numbers (C115_constants_partial, C115_start), if every classification names all objectives and implies no level equal to the utopian value or (unless the objective is free) to the nadir value; the achievement functions may be any that change by a constant, which the documented ones do (C115_documented_functions). Refuted without these conditions, in doubles: a classification with fewer entries than objectives is accepted and the missing levels are 0 whatever the range (C115_unclassified_refuted); an objective accepted at its nadir value makes GUESS divide objective values by 0, so that the solution depends on their sign (C115_accepted_nadir_refuted)."
  },
  {
   "property": "C116",
   "status": "partial",
   "theorems": [
    "C116_constants_partial",
    "C116_start",
    "C116_counterpart",
    "C116_reference_start_refuted",
    "C116_short_classification_refuted"
   ],
   "note": "Proved for all histories, all constants, problems given by data or by a minimizer, with exact numbers (C116_constants_partial, C116_start), for a convex hull and a linear solver that move with their data, if the navigation starts from one of the shown solutions and every classification names all objectives; every session of one object has its counterpart (C116_counterpart). Refuted without these conditions, in doubles: a navigation started from a reference point takes the decision vector the scalar problem returns for the current objective values, so both objects show the same one (C116_reference_start_refuted); a classification with one entry is accepted, and the first objective's ideal value is compared with every objective (C116_short_classification_refuted)."
  },
  {
   "property": "C117",
   "status": "partial",
   "theorems": [
    "C117_order_partial",
    "C117_answers",
    "C117_counterpart",
    "C117_documented_function",
    "C117_rounding_refuted"
   ],
   "note": "Proved for all permutations, all histories, problems given by data or by a minimizer that finds the same minimum in either order, with exact numbers (C117_order_partial); every answer and every session of one object has its counterpart (C117_answers, C117_counterpart); the hypothesis on the minimizer holds for the documented achievement function if it only sees its values (C117_documented_function). When a call raises, the corresponding one raises too, but the exception may be another one (with several failing solver calls the first one shows). Refuted in doubles only at rounding: a sum of squares depends on the order of its terms, so a solution shown can differ in the last bit (C117_rounding_refuted)."
  },
  {
   "property": "C118",
   "status": "partial",
   "theorems": [
    "C118_order_partial",
    "C118_answers",
    "C118_counterpart",
    "C118_documented_functions",
    "C118_nan_rank_refuted",
    "C118_pairwise_ratios_refuted"
   ],
   "note": "Proved for all permutations and all histories, with exact numbers, for optimizers that find the same decision vector in either order, and preference information that gives one number (not a nan) for each objective (C118_order_partial); every such answer and every session of one object has its counterpart (C118_answers, C118_counterpart); the hypothesis on the optimizers holds for the documented functions if the optimizers only see values and do not care about the order of the constraints (C118_documented_functions). When a call raises, the corresponding one raises too, but possibly another exception (the first of several failing epsilon-constraint problems shows). Refuted without these conditions, in doubles: NAUTILUS accepts the ranks [1, nan] and refuses [nan, 1] (C118_nan_rank_refuted); pairwise ratios in NAUTILUS 2 are scaled to the first objective, the augmentation term is not, so the same ratio leads to another solution when the objectives are exchanged (C118_pairwise_ratios_refuted)."
  }
 ]
}