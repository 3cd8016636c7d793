{
"C01": "Exact arithmetic (extended reals), and IEEE doubles: every component shown is within 2^-51 (relative) of the exact combination, and on the last iteration is numerically equal to the front row. Stale requests and arbitrary histories included.",
"C02": "Any arithmetic. The clustering (scikit-learn) is an oracle that returns n valid row positions.",
"C03": "For every arithmetic with lawful comparisons, hence for IEEE doubles.",
"C04": "Every arithmetic.",
"C05": "Every arithmetic; answers are assumed not to raise, as in the property.",
"C06": "Exact arithmetic. IEEE doubles: objective vector numerically a front row; decision vector of a row within 2^-536 of it, hence its own unless two rows are that close; C06_underflow_refuted shows the restriction is needed (squares underflow).",
"C07": "Exact arithmetic, and IEEE doubles with an explicit relative error bound (2k+10)2^-52 and exactly 100 on the last iteration.",
"C08": "Every arithmetic.",
"C09": "False as stated: C09_index_validation_refuted shows that index = number of points always passes the validator and always raises IndexError. What holds: C09_accepted_index_iff and C09_valid_index_accepted_partial.",
"C10": "False as stated: the documented key is rejected and a count of 0 is accepted and then raises ZeroDivisionError after mutating the object. The used count is the given one (partial).",
"C100": "Exactly which other exceptions occur, per method: TypeError for non-bool flags (Navigator), non-numeric counts or a single level (NIMBUS), IndexError for too many classes (NIMBUS), AttributeError/KeyError/TypeError (RPM), KeyError/TypeError/IndexError (NAUTILUS); save and most-preferred answers of NIMBUS are always rejected properly. E-NAUTILUS: C09_rejected_exception; Pareto Navigator: C78.",
"C101": "Refuted: np.allclose ignores changes below 1e-8 + 1e-5|old|; with objectives of magnitude 5e-9 no answer after the first one is ever used (all sessions, exact reals; doubles witness). Partial: exactly which answers redirect the navigation.",
"C11": "Every arithmetic.",
"C12": "On shapes.",
"C13": "Proved in exact arithmetic, and in any arithmetic for sessions in which the points computed lie between the chosen point and the row (C13_progress_any_arithmetic); with doubles this holds for the last two steps and for rows below by a margin of n*2^-51 (C13_rounding_safe_doubles, C13_two_iterations_doubles). Refuted for doubles in general: with three iterations one rounding error makes every row unreachable and the session is stranded (C13_doubles_refuted). Clustering is an oracle that answers with n valid positions.",
"C14": "False for k >= 3, with IEEE doubles: a shown point worse than the chosen one; a choice after which no point is shown and every forward answer raises; a choice that raises ValueError. Proved for any number of objectives and any ordered arithmetic: the reported lower bounds tell which points have a front row below; choosing such a point gives a ValueError or a request with at least one point; every next point lies between the chosen point and a front row inside the reported bounds; if the reported upper bounds do not exceed the point the full property holds.",
"C15": "Every arithmetic.",
"C16": "State and every issued request; counters change by one per forward answer; no answer raises ZeroDivisionError.",
"C17": "Exact arithmetic (XR) and IEEE doubles (every component within 2^-51*2^e of the exact step, equal to the projection's numbers on the last step); any history; the projection is a row of the supplied front.",
"C18": "Exact arithmetic; closed form for any number of answers, plus existence of such sessions of every length. IEEE doubles: after t steps within t*2^-49*2^e of the exact closed form, and the last point has the numbers of the front row.",
"C19": "For any ordered number type incl. IEEE doubles; at least two objectives and a front inside [ideal, nadir].",
"C20": "After a forward answer for any bounds; for every issued request when the front lies inside [ideal, nadir].",
"C21": "Content restored exactly (C21_back_restores_partial); forward after back equal when both answers project anew; refuted in general: the last projection and reference point are not restored, so an answer equal to a later reference point reuses the later projection.",
"C22": "Exact acceptance for reference points of the right length; refuted: NaN, broadcast length-1 reference points, speeds 5.5 / \"3\" are accepted; non-boolean flags raise TypeError.",
"C23": "Refuted: bounds of an answer are stored after the projection is computed; partial: the bounds of the previous answer are respected.",
"C24": "Refuted: speed is only stored in the first step; partial: exact value of the speed shown.",
"C25": "Any issued request, stale ones included.",
"C26": "Arrays live in an explicit heap in the model, so in-place NaN writes are visible.",
"C27": "proper_asf: NaN rows have NaN value and front rows do not (true of PointMethodASF, proved for exact arithmetic).",
"C28": "Proved in exact arithmetic for any forward session without user bounds, and in any arithmetic for such sessions in which rounding does no harm (C28_any_arithmetic, which adds that no further answer can fail); with doubles a step is harmless when the rows below the navigation point are below by a margin of n*2^-51 (C28_doubles). Refuted for doubles in general: one rounding error in the first step makes every row unreachable; another reference point then raises ValueError and stopping returns no solution (C28_doubles_refuted).",
"C29": "Any history of calls, with or without response; a failing call leaves the object unchanged.",
"C30": "Also every solution shown in any request is shown with its own objective vector.",
"C31": "Any history; the handler never fails on a validated response.",
"C32": "For every problem with finite data, over the extended reals and over IEEE doubles (the sign of a difference of finite doubles is exact, proved from Flocq). For an MOProblem the pairs are the solver's answers under the stated constraints.",
"C33": "Proved (exact arithmetic): n distinct points strictly between, equally far apart, each projected to the front. In double-precision arithmetic: every point within relative error 2^-49 of the i/(n+2) point, all distinct and strictly between as soon as some component of the two solutions is not almost equal. Refuted: the gap to one end is twice the others, and the projections shown may coincide.",
"C34": "Extended reals and IEEE doubles. C34_low_level_finds_nothing shows the hypothesis on '>=' levels is needed: otherwise ValueError.",
"C35": "Exact acceptance when there is one classification per objective and an integer number; refuted: the number of classifications is not checked, and 2.5 or NaN solutions are accepted.",
"C36": "Save and preferred requests in full; intermediate requests: refuted for one index (accepted, IndexError), proved otherwise.",
"C37": "Any history.",
"C38": "In full for any solver and any number type (weights, perturbed points, each solution a solution of its point); perturbed points q+|q-f|e_i exactly on real arithmetic. In double-precision arithmetic: each perturbed point differs from q only in its own component, within relative error (2k+10)*2^-53.",
"C39": "No IndexError after any history incl. failing calls (solver assumed not to raise IndexError itself); with a solver that always answers, and with the bundled solver on finite data in exact arithmetic, accepted reference points never fail.",
"C40": "In full; also: an answer to an older request returns the solution of the latest iteration.",
"C41": "Exact characterisation of what is accepted. Refuted as stated: a point is rejected only if every component is worse than the nadir; a list instead of an array gives AttributeError, a missing solution_index KeyError.",
"C42": "Proved on exact data when no component of the reference point is positive. Refuted in general: weights q/(utopian-nadir) are negative for positive components and the worst row is returned.",
"C43": "Every arithmetic, every history in which the initial request is not answered again after it was handled (failing calls and stale requests included). C43_restart_refuted: answering it again raises IndexError. C43_total_is_last_asked: the total is the one asked for last. C43_session_length holds for both methods.",
"C44": "Exact arithmetic, and IEEE doubles: the j-th point within j*2^-49*2^e of the exact closed form, the last one with the numbers of the solution, distance approximated with relative error (2k+10)2^-52.",
"C45": "Exact arithmetic, both methods: C45_monotone, C45_short_step. The hypothesis on the optimizer is the property's; C45_impairment_bound: an exact minimizer of the achievement function impairs an objective by at most rho*k/w_i; C45_impaired_refuted: it can happen, with IEEE doubles. In IEEE doubles: C45_doubles_partial, every session, every step back included, is monotone up to 2 t 2^(e-49) after t answers (values within 2^e); exactly it fails by rounding (C45_rounding_refuted).",
"C46": "False as stated: rank 0, negative ranks and percentages, too many entries are accepted (C46_weights_refuted). Exactly what is accepted: C46_accepted_ranks (C46_accepted_ranks_any in every arithmetic, doubles included), C46_accepted_percentages. With doubles, percentages with decimals that sum to 100 can be rejected (58.8, 24.9, 16.3: C46_decimal_percentages_refuted). Positive factors: C46_weights_partial.",
"C47": "False as stated (C47_no_request_refuted): step back with short_step False and use_previous_preference True returns None; missing short_step raises KeyError; percentages as a list raise TypeError. For all other answers: C47_progress_partial.",
"C48": "True for linked pairs (C48_directions, exact arithmetic; the loop ends after at most k passes). False as stated: C48_unlinked_diverges - some objective not linked to the first one, the loop never ends - and C48_accepted_ratios_refuted with concrete accepted ratios.",
"C49": "False as stated: raising the number of remaining iterations after the first step overflows the buffers (C49_more_iterations_refuted). Otherwise proved for every arithmetic (C49_no_index_error_partial).",
"C50": "Exact arithmetic, and IEEE doubles: the j-th point within j*2^-49*2^e of the exact closed form, the last one with the numbers of the solution, distance approximated with relative error (2k+10)2^-52.",
"C51": "Exact arithmetic; linprog is an oracle with its specification (an optimum of the given program). Constraint equivalence for every reachable state (every history of calls), min-max optimality after any history, and in terms of what was said in the session.",
"C52": "Every arithmetic (reals or IEEE doubles without NaN), every history including failed calls.",
"C53": "C53_forward: answers without step back. C53_back_partial: step back with a speed or after a forward move. C53_back_refuted: a second step back in a row without a speed moves forward again (the sign of the stored speed is flipped each time).",
"C54": "C54_mapping for every arithmetic. In the box for sessions that start from a given solution (C54_in_box_partial); refuted otherwise (C54_in_box_refuted, concrete session), for the length of classifications (C54_length_refuted) and a single classification (C54_single_refuted: broadcast).",
"C55": "Accepted iff int(v) in 1..5. The step is in (0, 0.1] for integer speeds; refuted for numeric strings (TypeError) and fractions such as 5.9 (step 0.118). C55_step_doubles: the same in IEEE doubles (the step is speed/5/10 as rounded, above 0 and at most the double 0.1).",
"C56": "Every arithmetic; Delaunay, generate_polytopes and the dominance tests are oracles. C56_settings_refuted: Rule 2 ignores the epsilon and method given (the tests between polytopes always use the defaults).",
"C57": "Every arithmetic, oracles as in C56.",
"C58": "Refuted: perturbate writes an attribute nothing reads; approximate is unchanged by any number of perturbations, so following the advice of the exception does not help. What holds (C58_perturbate_partial): the noise is added to the outcomes as given, entry by entry, also after other calls (it does not accumulate), is stored apart, and the outcomes stay.",
"C59": "For every lawful arithmetic and every oracle (C59_table); with an exact solver the first vector is the true ideal, exact numbers and doubles (C59_true_ideal). Refuted part: the success flag is ignored, so a failed optimisation enters the table (C59_failure_refuted).",
"C60": "With exact numbers and an exact solver every row is Pareto optimal within the bounds. Refuted in general: with an approximate solver a strictly dominated row is returned (C60_dominated_refuted, doubles), because the test compares with all earlier rows at once; with one decision variable the array of variables has two columns.",
"C61": "Name resolution of desdeo_mcdm/interactive/__init__.py. Proved for every method except NAUTILUS; refuted for NAUTILUS (the names of NautilusV2 replace its exception and request classes) and for the reference points of the Pareto Navigator (RPMException).",
"C62": "Proved in exact arithmetic, for histories with stale requests, step-backs and changed counts. With doubles a shown component leaves the box by at most T*2^(e-49), numbers up to 2^e and T requests so far (C62_points_near_box_doubles); C62_above_nadir_refuted: it does, by one rounding error, in a first request with five iterations.",
"C63": "Any history.",
"C64": "Any order-lawful number system, IEEE doubles included.",
"C65": "In full, except that a starting point with a single entry is accepted (refuted).",
"C66": "Refuted as stated (C66_failed_iteration_refuted). What holds is proved: the failed iteration only loses the choice among the solutions shown before; answering with a reference point gives what it would have given without the failure, and so does every later answer.",
"C67": "False: no constraint evaluator is passed to the optimizer of the achievement function; the session does not depend on the constraints at all (theorem for all problems), and a concrete session ends with a solution that violates the constraint. What holds (C67_inherited_partial): whatever is true of every solution the optimizer returns is true of the solution a session ends with, in any history with failing and repeated calls; so constraints hold when the optimizer itself observes them.",
"C68": "False: the request shown with one iteration left always leads to the stop request, whatever the answer (unless it changes the number of iterations); theorem for all sessions. What holds: in a session that asks once for n iterations, a step back (short or full) is possible from every request shown before all n steps are taken, with the point it leads to (C68_step_back_possible_partial), and the session ends exactly when all n steps have been taken (C68_ends_after_n_steps_partial).",
"C69": "C69_constructor_checks is the exact condition; C69_bad_arguments_refuted shows where it differs from the documented one (minimize is never looked at, TypeError instead of NautilusException, starting points worse in some objective).",
"C70": "False: a failing step forward has already advanced the step counter; every later answer to the same request raises TypeError. What holds: a failing answer to the first request can be repeated as on a new object (C70_initial_request_partial), a failing step back leaves the object as it was (C70_step_back_partial), and a failing step forward can be repaired by a full step back with the intended preferences as long as two more steps are left (C70_step_forward_repair_partial).",
"C71": "C71_reported_bounds for every arithmetic and every history; C71_bounds_enclose for every arithmetic and C71_bounds_tighten for every arithmetic with lawful comparisons (IEEE doubles included), both with exact epsilon-constraint optimizers.",
"C72": "Proved for a preferred solution; refuted for a reference point: the decision vector (problem) or the row number (data problem) is shown as current solution.",
"C73": "C73_shown_solution, C73_stop, C73_accept for every arithmetic; C73_data_closest over the reals.",
"C74": "Navigation: exact convex hull, exact total linprog, box enclosing the given solutions, a current solution with k components. Refuted before a direction has been given (TypeError).",
"C75": "Every arithmetic and every state.",
"C76": "Exact arithmetic and linprog.",
"C77": "Exact arithmetic and linprog.",
"C78": "Proved for answers in which no reference point is looked at; refuted for reference points (RPMException, AttributeError).",
"C79": "Exact arithmetic, exact convex hull.",
"C80": "Every arithmetic, oracles as in C56.",
"C81": "Exact arithmetic and exact dominance tests.",
"C82": "Exact arithmetic and exact dominance tests; this is the D-maximal inherently nondominated set that the documentation promises.",
"C83": "Every arithmetic.",
"C84": "Exact numbers and doubles. Refuted when another objective is infinite or NaN (0 * inf = NaN).",
"C85": "Proved for two objectives and, with unique single-objective optima, attainment for any number; exact numbers and doubles. Refuted from three objectives on (C85_three_objectives_refuted).",
"C86": "False: the constraint evaluator is never passed to the solver (C86_ignored_refuted), an exact solver returns an infeasible solution (C86_infeasible_refuted). What holds (C86_harmless_constraints_partial): if every solution Pareto optimal within the bounds satisfies the constraints, all returned solutions are Pareto optimal for the constrained problem.",
"C87": "Proved if the optimisation for the first reference point succeeds; refuted if it fails: the result is empty (np.all over an empty selection is True, and only i < 1 is exempted).",
"C88": "Exact arithmetic; math.ceil exact.",
"C89": "Proved for points that are infinite in all entries. Refuted for None, the default (TypeError), and for points that are infinite in some entries only (exception).",
"C90": "Proved, except that different lengths of ideal and nadir raise ValueError (C90_lengths_refuted).",
"C91": "Every arithmetic and problem with at least two objectives; C91_same_session: the session with plots is a session of C29-C37. Refuted part: half an intermediate solution (0.5) is accepted, shows an empty list, and the plot of the next request raises ValueError (pandas, one-dimensional empty array); C91_failure, C91_empty_list: the only way.",
"C92": "Proved for arrays that are not written into after they were part of an answer. Refuted otherwise: the method keeps the array object and compares the next answer with it, so a decision maker who edits one array in place is ignored after the first step (C92_one_array_not_heard, for all such sessions; C92_same_answers_refuted: witness).",
"C93": "Any arithmetic with exact signs of differences (doubles and reals: C93_hypotheses_met); decision vectors of equal length and find_closest in range are hypotheses about the data problem.",
"C94": "Any arithmetic. The answers exhibited: all objectives free, save nothing, no intermediate solutions, choose. C94_last_request_may_be_dead: the last request returned need not be the one to answer.",
"C95": "Any arithmetic. Refuted part: C95_checked_answers_refuted, a dictionary edited after it was accepted is acted on although its request refuses it. A method returning the request it was given is taken to return a new one; Navigator stop requests are not answered.",
"C96": "Any arithmetic (order laws for the Navigator).",
"C97": "0-d arguments raise IndexError; shapes only, entries are not examined by the code.",
"C98": "C98_constructor_checks is the exact condition; C98_bad_arguments_refuted shows where it differs from the documented one (the length of minimize is never looked at; TypeError instead of RPMException).",
"C99": "C99_weakly_optimal: any arithmetic, any history, achievement functions that prefer better rows. C99_documented_functions: the documented formulas satisfy this in exact arithmetic when classifications have one entry per objective and demand less than the nadir of every objective not classified free. False without that: a too short classification is accepted and the STOM solution shown is dominated in every objective (C99_short_classification_refuted, doubles).",
"C102": "Every arithmetic. Exactly what is accepted is proved; as stated it is false: too many components, NaN components and ratios, and entries naming one or three objectives pass (C102_one_component_per_objective_refuted). NAUTILUS 1 preferences: C46.",
"C103": "Every arithmetic, every state. E-NAUTILUS: C15_no_response_changes_nothing.",
"C104": "For every arithmetic with the order laws, every problem (data or continuous with any optimizer that is a function), all pairs of histories.",
"C105": "Exact extended reals (so that equal values are the same value); all permutations, all parallel histories. C105_ties_matter (doubles) shows that the proviso is needed: with a tie the first solution in the front is followed.",
"C106": "Any arithmetic with the order laws (data of the Reference Point Method after a failed answer and of Pareto Navigator: exact extended reals). NAUTILUS: a session without failing answers ends with the solution of the last iteration and its objective vector (C106_nautilus_solution); after a failing one the slot may be empty. E-NAUTILUS: the point must have k components, which can only fail when an earlier step back supplied arrays of another width. Reference Point Method right after a failed answer: one answer may stop without a solution (RStop None None in C106_rpm_hypotheses_met), two give a solution. Hypotheses that a solver or the data be usable are in the statements.",
"C107": "Every arithmetic, no hypothesis on the solvers. C107_start, C107_show, C107_navigation, C107_continue: what can be raised; C107_no_success, C107_constructor: the converse.",
"C108": "Every arithmetic, every optimizer that is a function of its arguments, any state of the object (C108_full_step_back) and a new object (C108_first_answer). When a full step back leads to an iteration point is C68.",
"C109": "Doubles, math.ceil exact (f64_ceil_exact). Proved if eps is at least 2^-48 of the size of the numbers, there are at most 2^52 steps per axis and nothing is extremely large or small; refuted without: eps = 1e-6 is lost next to 1e11 and the upper corner is not used.",
"C110": "Proved for every reachable state and every list of answers by a simulation: C110_fresh_session_partial for the method with its plots, C110_without_plots for the session without them, C110_same_current for two sessions. Missing/false: when the session with the empty archive lists no solution at all, making the plot of the next request raises ValueError there and not in the other session (C110_empty_list_refuted; the same fault as C91).",
"C111": "Exact extended reals; all constants, all parallel histories, any achievement function that ignores constants (C111_documented_function: the documented one does). The proviso same_changes (a change of the reference point counts in both or in neither) is needed: np.allclose compares with 1e-5 of the value, and C111_unnoticed_change_refuted (doubles) shows two answers that redirect the navigation in one object and are ignored after 2^20 is added to both objectives. C111_noticeable_changes gives a checkable sufficient condition.",
"C112": "Exact (extended real) arithmetic; the clustering is an oracle, and the hypothesis on it (corresponding rows are picked) is part of the claim: k-means in other units may of course cluster differently. Front with one value per objective in each row and one decision vector per row.",
"C113": "Exact extended reals, NAUTILUS and NAUTILUS 2, all constants, all parallel histories (restarts and unanswered requests included), any optimizer that finds the same points for the moved reference points (C113_documented_functions: so do optimizers that only see the values of the documented achievement function and ignore a constant added to what they minimize). C113_counterpart: every session has its moved counterpart.",
"C114": "The same answers are accepted (C114_accepted, all constants). Refuted for the solutions: the weights are the reference point divided by (utopian - nadir), so they depend on where the zero of an objective is; data (1,1), (2,2) and the same data minus 4 lead to different rows (C114_constants_refuted, doubles).",
"C115": "Proved for all histories, all constants, problems given by data or by a minimizer, with exact numbers (C115_constants_partial, C115_start), if every classification names all objectives and implies no level equal to the utopian value or (unless the objective is free) to the nadir value; the achievement functions may be any that change by a constant, which the documented ones do (C115_documented_functions). Refuted without these conditions, in doubles: a classification with fewer entries than objectives is accepted and the missing levels are 0 whatever the range (C115_unclassified_refuted); an objective accepted at its nadir value makes GUESS divide objective values by 0, so that the solution depends on their sign (C115_accepted_nadir_refuted).",
"C116": "Proved for all histories, all constants, problems given by data or by a minimizer, with exact numbers (C116_constants_partial, C116_start), for a convex hull and a linear solver that move with their data, if the navigation starts from one of the shown solutions and every classification names all objectives; every session of one object has its counterpart (C116_counterpart). Refuted without these conditions, in doubles: a navigation started from a reference point takes the decision vector the scalar problem returns for the current objective values, so both objects show the same one (C116_reference_start_refuted); a classification with one entry is accepted, and the first objective's ideal value is compared with every objective (C116_short_classification_refuted).",
"C117": "Proved for all permutations, all histories, problems given by data or by a minimizer that finds the same minimum in either order, with exact numbers (C117_order_partial); every answer and every session of one object has its counterpart (C117_answers, C117_counterpart); the hypothesis on the minimizer holds for the documented achievement function if it only sees its values (C117_documented_function). When a call raises, the corresponding one raises too, but the exception may be another one (with several failing solver calls the first one shows). Refuted in doubles only at rounding: a sum of squares depends on the order of its terms, so a solution shown can differ in the last bit (C117_rounding_refuted).",
"C118": "Proved for all permutations and all histories, with exact numbers, for optimizers that find the same decision vector in either order, and preference information that gives one number (not a nan) for each objective (C118_order_partial); every such answer and every session of one object has its counterpart (C118_answers, C118_counterpart); the hypothesis on the optimizers holds for the documented functions if the optimizers only see values and do not care about the order of the constraints (C118_documented_functions). When a call raises, the corresponding one raises too, but possibly another exception (the first of several failing epsilon-constraint problems shows). Refuted without these conditions, in doubles: NAUTILUS accepts the ranks [1, nan] and refuses [nan, 1] (C118_nan_rank_refuted); pairwise ratios in NAUTILUS 2 are scaled to the first objective, the augmentation term is not, so the same ratio leads to another solution when the objectives are exchanged (C118_pairwise_ratios_refuted)."
}