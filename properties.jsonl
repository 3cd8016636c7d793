{"id": "C01", "title": "E-NAUTILUS: intermediate points are the exact convex combination", "statement": "Whenever E-NAUTILUS hands out a request with n iterations left after a forward answer (or the first one), every shown intermediate point equals ((n-1)/n)*p + (1/n)*zbar componentwise, where p is the point the decision maker chose (the nadir at the start) and zbar is a row of the Pareto front that was reachable from it; in particular with one iteration left every shown point IS a row of the supplied front.", "quantifier": "every finite front, nadir, n>=1, number of points and every KMeans outcome", "why_tests_cant": "the claim is about every front, every number of iterations and whichever representatives the randomised clustering returns; tests fix one front and seed", "anchors": ["desdeo_mcdm/interactive/ENautilus.py: ENautilus.calculate_intermediate_points", "desdeo_mcdm/interactive/ENautilus.py: ENautilus.calculate_representative_points", "desdeo_mcdm/interactive/ENautilus.py: ENautilus.handle_request"]}
{"id": "C02", "title": "E-NAUTILUS: representatives are reachable rows of the front, the right number of them", "statement": "The representative points used for a request are always rows of the Pareto front whose index is in the current reachable set, and there are exactly min(n_points, number of reachable solutions) of them.", "quantifier": "every front, reachable set, n_points >= 1 and every clustering outcome", "why_tests_cant": "KMeans is randomised; only a proof covers every outcome of the clustering", "anchors": ["desdeo_mcdm/interactive/ENautilus.py: ENautilus.calculate_representative_points"]}
{"id": "C03", "title": "E-NAUTILUS: bounds are attained and enclose the points that can be reached", "statement": "For each shown point z, the lower/upper bound of objective r is the min/max of objective r over the front rows that are at least as good as z in all other objectives: both bounds are attained by such a row, lower <= upper, and every front row that is componentwise <= z lies inside [lower, upper].", "quantifier": "every front (NaN-free or not), every point, every objective; holds for IEEE doubles too", "why_tests_cant": "universal over fronts and points; a test compares a handful of rows", "anchors": ["desdeo_mcdm/interactive/ENautilus.py: ENautilus.calculate_bounds"]}
{"id": "C04", "title": "E-NAUTILUS: reachable index set is exactly the box filter", "statement": "calculate_reachable_point_indices returns, in increasing order and without repetition, exactly the indices of the front rows with lower <= row <= upper in every objective.", "quantifier": "every front and every pair of bounds of matching length, including NaN entries", "why_tests_cant": "exactness (no missing, no extra index) for all fronts cannot be sampled", "anchors": ["desdeo_mcdm/interactive/ENautilus.py: ENautilus.calculate_reachable_point_indices"]}
{"id": "C05", "title": "E-NAUTILUS: a session of n iterations takes exactly n answers", "statement": "After answering the initial request with n_iterations = n, answering each request with a valid in-range index and neither stepping back nor changing the remaining count: if no answer raises, the first n-1 answers each produce a request showing one iteration less than the previous, and the n-th answer produces the stop request, with 0 iterations left.", "quantifier": "every n >= 1, every front, every sequence of choices and clustering outcomes", "why_tests_cant": "needs induction over the number of iterations", "anchors": ["desdeo_mcdm/interactive/ENautilus.py: ENautilus.handle_initial_request", "desdeo_mcdm/interactive/ENautilus.py: ENautilus.handle_request"]}
{"id": "C06", "title": "E-NAUTILUS: the final solution is on the front and carries its own decision vector", "statement": "When the request showing one iteration left was produced by a forward answer, the stop request's objective vector is a row of the front, and when variables were supplied the returned decision vector is the one stored at an index whose front row equals that objective vector.", "quantifier": "every finite front, every session, every clustering outcome", "why_tests_cant": "nearest-row lookup must be exact for every front, including duplicated rows", "anchors": ["desdeo_mcdm/interactive/ENautilus.py: ENautilus.handle_request", "desdeo_mcdm/interactive/ENautilus.py: ENautilusStopRequest"]}
{"id": "C07", "title": "E-NAUTILUS: distance percentage", "statement": "The distance shown for a point is 100*||z-nadir||/||zbar-nadir||; for the first request of a session with n iterations it is exactly 100/n for every representative different from the nadir, and with one iteration left it is exactly 100.", "quantifier": "every finite front/nadir/n in exact arithmetic", "why_tests_cant": "universal over fronts and n", "anchors": ["desdeo_mcdm/interactive/ENautilus.py: ENautilus.calculate_distances"]}
{"id": "C08", "title": "E-NAUTILUS: stepping back is faithful", "statement": "Stepping back with the content of an earlier request and its iteration count yields a request with exactly that content, and answering it gives the same outcome (request or stop) as answering the earlier request at that iteration count would have, whatever happened in between.", "quantifier": "every history, every earlier request, every answer, every clustering outcome", "why_tests_cant": "quantifies over all histories between the request and the step back", "anchors": ["desdeo_mcdm/interactive/ENautilus.py: ENautilus.handle_request"]}
{"id": "C09", "title": "E-NAUTILUS: preferred point index validation is exact", "statement": "The response validator rejects every index that does not designate one of the shown points, so that answering never fails with an IndexError.", "quantifier": "every request content and every index", "why_tests_cant": "boundary behaviour for all sizes", "anchors": ["desdeo_mcdm/interactive/ENautilus.py: ENautilusRequest.validator", "desdeo_mcdm/interactive/ENautilus.py: ENautilusRequest.__init__"]}
{"id": "C10", "title": "E-NAUTILUS: changed iteration counts are sane", "statement": "A response that changes the number of remaining iterations is only accepted with a usable (positive) count under the documented key, and the next intermediate points are then computed with that count.", "quantifier": "every response", "why_tests_cant": "all integers and every key combination", "anchors": ["desdeo_mcdm/interactive/ENautilus.py: ENautilusRequest.validator", "desdeo_mcdm/interactive/ENautilus.py: ENautilus.handle_request"]}
{"id": "C11", "title": "E-NAUTILUS: initial response validation", "statement": "The initial response is accepted if and only if n_iterations and n_points are present and are Python ints (bools count) that are at least 1; otherwise ENautilusException is raised.", "quantifier": "every response dictionary", "why_tests_cant": "all value types and magnitudes", "anchors": ["desdeo_mcdm/interactive/ENautilus.py: ENautilusInitialRequest.validator"]}
{"id": "C12", "title": "E-NAUTILUS: constructor accepts exactly the consistent shapes", "statement": "The constructor succeeds iff the front is two dimensional, its column count equals the ideal's first dimension, ideal and nadir have equal shapes and a non-empty name list has one name per objective; otherwise it raises ENautilusException (IndexError for a 0-d ideal).", "quantifier": "every combination of shapes and name lists", "why_tests_cant": "all shapes", "anchors": ["desdeo_mcdm/interactive/ENautilus.py: ENautilus.__init__"]}
{"id": "C13", "title": "E-NAUTILUS: progress for two objectives", "statement": "For a two-objective front of mutually non-dominated rows, the solutions reachable from a shown point are exactly the front rows that are <= it, every point shown afterwards is componentwise <= the chosen one, and bounds can always be computed; hence no forward answer ever fails for lack of reachable rows.", "quantifier": "every mutually non-dominated bi-objective finite front below the nadir, every session", "why_tests_cant": "an invariant over all sessions", "anchors": ["desdeo_mcdm/interactive/ENautilus.py: ENautilus.calculate_bounds", "desdeo_mcdm/interactive/ENautilus.py: ENautilus.handle_request"]}
{"id": "C14", "title": "E-NAUTILUS: progress for three or more objectives", "statement": "For any number of objectives each intermediate point shown after choosing p is componentwise <= p, and the method can always compute the bounds of the points it shows.", "quantifier": "every mutually non-dominated finite front with k >= 3 objectives", "why_tests_cant": "the interaction of per-objective bounds only breaks on special fronts", "anchors": ["desdeo_mcdm/interactive/ENautilus.py: ENautilus.calculate_bounds", "desdeo_mcdm/interactive/ENautilus.py: ENautilus.calculate_reachable_point_indices"]}
{"id": "C15", "title": "E-NAUTILUS: a rejected or failing answer and stop requests do not corrupt the session", "statement": "Iterating a stop request returns it unchanged and changes nothing; an out-of-range index that slips through validation raises before anything is mutated.", "quantifier": "every state and request", "why_tests_cant": "every crash point", "anchors": ["desdeo_mcdm/interactive/ENautilus.py: ENautilus.iterate", "desdeo_mcdm/interactive/ENautilus.py: ENautilus.handle_request"]}
{"id": "C16", "title": "Navigator: step counters", "statement": "In every reachable state of a NAUTILUS Navigator session (any mix of forward steps, steps back to any previously issued request, speed changes, stale requests and failing answers) step_number + steps_remaining = 101 and 1 <= steps_remaining <= 100, so the navigation never divides by zero. The first request shows step 1 of 100, distance 0, the nadir as navigation point, the whole box and every solution as reachable.", "quantifier": "every history", "why_tests_cant": "needs an invariant over all interleavings of forward/backward steps", "anchors": ["desdeo_mcdm/interactive/NautilusNavigator.py: NautilusNavigator.__init__", "desdeo_mcdm/interactive/NautilusNavigator.py: NautilusNavigator.update", "desdeo_mcdm/interactive/NautilusNavigator.py: NautilusNavigator.handle_request"]}
{"id": "C17", "title": "Navigator: navigation point moves on the segment to the projection", "statement": "The new navigation point is ((r-1)/r)*nav + (1/r)*proj with r the steps remaining and proj a row of the front, hence lies between them componentwise; with one step remaining it is exactly the projection.", "quantifier": "every finite front, nav point and r >= 1", "why_tests_cant": "universal over reals", "anchors": ["desdeo_mcdm/interactive/NautilusNavigator.py: NautilusNavigator.calculate_navigation_point"]}
{"id": "C18", "title": "Navigator: constant preference reaches the front in 100 steps along a straight line", "statement": "If the projection does not change, after t forward steps from the nadir the navigation point is nadir + (t/100)*(proj-nadir) and the reported distance is t percent; after 100 steps it is the projected front row.", "quantifier": "every nadir, projection and 0 <= t <= 100, exact arithmetic", "why_tests_cant": "closed form proved by induction over steps", "anchors": ["desdeo_mcdm/interactive/NautilusNavigator.py: NautilusNavigator.calculate_navigation_point", "desdeo_mcdm/interactive/NautilusNavigator.py: NautilusNavigator.calculate_distance"]}
{"id": "C19", "title": "Navigator: bounds shrink and reachable sets are nested", "statement": "On every forward step the new lower bounds are >= the previous ones, the new upper bounds are <= the previous ones (for a front enclosed by the previous bounds in the considered objective), and the reachable indices are a subset of the previous ones.", "quantifier": "every front, nav point, user bounds; holds for IEEE doubles", "why_tests_cant": "monotonicity for all fronts and preferences", "anchors": ["desdeo_mcdm/interactive/NautilusNavigator.py: NautilusNavigator.calculate_bounds", "desdeo_mcdm/interactive/NautilusNavigator.py: NautilusNavigator.update"]}
{"id": "C20", "title": "Navigator: reachable index set is exactly the box filter", "statement": "The reachable indices computed from bounds are exactly the rows of the front within the bounds, in increasing order.", "quantifier": "every front and bounds", "why_tests_cant": "exactness for all fronts", "anchors": ["desdeo_mcdm/interactive/NautilusNavigator.py: NautilusNavigator.calculate_reachable_point_indices"]}
{"id": "C21", "title": "Navigator: going back restores the earlier situation", "statement": "Answering with go_to_previous returns a request whose content is that of the supplied earlier request except for the speed and user bounds taken from the response, and restores the method's counters, navigation point, bounds, reachable set, distance, ideal and nadir from it, so that navigating forward from there is the same as navigating forward from the earlier request.", "quantifier": "every history and every earlier request", "why_tests_cant": "quantifies over everything that may have happened in between", "anchors": ["desdeo_mcdm/interactive/NautilusNavigator.py: NautilusNavigator.handle_request", "desdeo_mcdm/interactive/NautilusNavigator.py: NautilusNavigator.update"]}
{"id": "C22", "title": "Navigator: response validation", "statement": "The validator accepts exactly the responses with a reference point inside [ideal, nadir] of the right length, a speed in 1..5, boolean flags and user bounds of the right length, and rejects everything else with NautilusNavigatorException.", "quantifier": "every response", "why_tests_cant": "all values, types and lengths including NaN", "anchors": ["desdeo_mcdm/interactive/NautilusNavigator.py: NautilusNavigatorRequest.validator"]}
{"id": "C23", "title": "Navigator: user bounds are respected", "statement": "When the decision maker supplies upper bounds, the navigation point the method moves towards after that answer is a solution satisfying them whenever a reachable solution does.", "quantifier": "every front, preference and bounds", "why_tests_cant": "depends on the order of updates over the whole history", "anchors": ["desdeo_mcdm/interactive/NautilusNavigator.py: NautilusNavigator.update", "desdeo_mcdm/interactive/NautilusNavigator.py: NautilusNavigator.solve_nautilus_asf_problem"]}
{"id": "C24", "title": "Navigator: reported speed", "statement": "The speed shown in a request is the speed given in the response that produced it.", "quantifier": "every history of speed changes", "why_tests_cant": "history dependent", "anchors": ["desdeo_mcdm/interactive/NautilusNavigator.py: NautilusNavigator.update", "desdeo_mcdm/interactive/NautilusNavigator.py: NautilusNavigator.handle_request"]}
{"id": "C25", "title": "Navigator: stopping returns the reachable solutions", "statement": "Stopping returns exactly the front rows at the request's reachable indices, each with the decision vector at the same index, and changes nothing in the method.", "quantifier": "every state and request", "why_tests_cant": "alignment for all index sets", "anchors": ["desdeo_mcdm/interactive/NautilusNavigator.py: NautilusNavigator.handle_request", "desdeo_mcdm/interactive/NautilusNavigator.py: NautilusNavigatorStopRequest"]}
{"id": "C26", "title": "Navigator: the supplied front is never modified", "statement": "No sequence of answers modifies the Pareto front or decision variables given at construction, even though the bound computation writes NaNs into its argument.", "quantifier": "every history", "why_tests_cant": "every history", "anchors": ["desdeo_mcdm/interactive/NautilusNavigator.py: NautilusNavigator.calculate_bounds", "desdeo_mcdm/interactive/NautilusNavigator.py: NautilusNavigator.update"]}
{"id": "C27", "title": "Navigator: projection minimises the achievement function over admissible solutions", "statement": "The projection row is a reachable row satisfying the user bounds that minimises the ASF among such rows (first one in index order on ties); when no row is admissible, the solver fails instead of returning an inadmissible row.", "quantifier": "every front, reachable set, bounds and ASF", "why_tests_cant": "optimality over all rows", "anchors": ["desdeo_mcdm/interactive/NautilusNavigator.py: NautilusNavigator.solve_nautilus_asf_problem"]}
{"id": "C28", "title": "Navigator: two-objective reachability", "statement": "For a two-objective mutually non-dominated front and no user bounds, the reachable solutions after a forward step are exactly the previously reachable rows that are <= the new navigation point, and the projection stays reachable.", "quantifier": "every mutually non-dominated bi-objective front", "why_tests_cant": "all fronts", "anchors": ["desdeo_mcdm/interactive/NautilusNavigator.py: NautilusNavigator.calculate_bounds", "desdeo_mcdm/interactive/NautilusNavigator.py: NautilusNavigator.update"]}
{"id": "C29", "title": "NIMBUS: request/state protocol", "statement": "Every request type is accepted only in the state that issued it: any other request raises NimbusException and changes nothing; the phases advance classify -> archive -> intermediate -> (archive or preferred) -> (classify or end) and the end state is absorbing.", "quantifier": "every history including stale requests and failing answers", "why_tests_cant": "needs an invariant over all histories", "anchors": ["desdeo_mcdm/interactive/NIMBUS.py: NIMBUS.iterate", "desdeo_mcdm/interactive/NIMBUS.py: NIMBUS.handle_classification_request", "desdeo_mcdm/interactive/NIMBUS.py: NIMBUS.handle_save_request", "desdeo_mcdm/interactive/NIMBUS.py: NIMBUS.handle_intermediate_solutions_request", "desdeo_mcdm/interactive/NIMBUS.py: NIMBUS.handle_most_preferred_request"]}
{"id": "C30", "title": "NIMBUS: the archive only grows and stays aligned", "statement": "Over any session archived solutions are never removed or reordered, and the i-th archived objective vector is always the objective vector of the i-th archived decision vector.", "quantifier": "every history", "why_tests_cant": "invariant over all sessions", "anchors": ["desdeo_mcdm/interactive/NIMBUS.py: NIMBUS.save_solutions_to_archive"]}
{"id": "C31", "title": "NIMBUS: nothing is lost between phases", "statement": "The solutions offered when choosing intermediate solutions are the archive followed by exactly those newly computed solutions that were not saved.", "quantifier": "every number of solutions and every selection", "why_tests_cant": "all selections", "anchors": ["desdeo_mcdm/interactive/NIMBUS.py: NIMBUS.save_solutions_to_archive", "desdeo_mcdm/interactive/NIMBUS.py: NIMBUS.compute_intermediate_solutions"]}
{"id": "C32", "title": "NIMBUS: requested number of solutions", "statement": "A classification asking for m in 1..4 solutions yields exactly m decision/objective pairs, the first from the NIMBUS scalarisation and the rest from STOM, ASF and GUESS with the z_bar implied by the classification.", "quantifier": "every classification and problem", "why_tests_cant": "all classifications", "anchors": ["desdeo_mcdm/interactive/NIMBUS.py: NIMBUS.calculate_new_solutions"]}
{"id": "C33", "title": "NIMBUS: intermediate solutions", "statement": "The n requested intermediate solutions are n distinct evenly spaced points strictly between the two chosen solutions.", "quantifier": "every pair of distinct solutions and n >= 1", "why_tests_cant": "closed form for all n", "anchors": ["desdeo_mcdm/interactive/NIMBUS.py: NIMBUS.compute_intermediate_solutions"]}
{"id": "C34", "title": "NIMBUS: the classification is honoured by the first solution (discrete problems)", "statement": "For a discrete problem the first returned solution is a data row that is no worse than the current one in every '<' , '<=' and '=' objective and within the given level in every '>=' objective, and such a row exists whenever each '>=' level is at least the current value.", "quantifier": "every data set, current solution and valid classification", "why_tests_cant": "optimality/feasibility over all rows", "anchors": ["desdeo_mcdm/interactive/NIMBUS.py: NIMBUS.calculate_new_solutions"]}
{"id": "C35", "title": "NIMBUS: classification validation", "statement": "The validator accepts exactly the responses with one known classification per objective, levels for every '<=' and '>=' objective within [ideal, nadir], and number_of_solutions in 1..4.", "quantifier": "every response", "why_tests_cant": "all lengths and values", "anchors": ["desdeo_mcdm/interactive/NIMBUS.py: NimbusClassificationRequest.validator"]}
{"id": "C36", "title": "NIMBUS: index validation in save/intermediate/preferred requests", "statement": "The index validators accept only indices designating shown solutions, exactly two of them for intermediate solutions, so that handling never fails with an IndexError.", "quantifier": "every list of indices", "why_tests_cant": "all lists", "anchors": ["desdeo_mcdm/interactive/NIMBUS.py: NimbusSaveRequest.validator", "desdeo_mcdm/interactive/NIMBUS.py: NimbusIntermediateSolutionsRequest.validator", "desdeo_mcdm/interactive/NIMBUS.py: NimbusMostPreferredRequest.validator"]}
{"id": "C37", "title": "NIMBUS: chosen solution is what the session ends with", "statement": "When the decision maker chooses index i and does not continue, the stop request contains exactly the i-th shown solution and its objective vector; when continuing, it becomes the current solution of the next classification.", "quantifier": "every history and index", "why_tests_cant": "all histories", "anchors": ["desdeo_mcdm/interactive/NIMBUS.py: NIMBUS.handle_most_preferred_request", "desdeo_mcdm/interactive/NIMBUS.py: NIMBUS.update_current_solution"]}
{"id": "C38", "title": "Reference point method: k+1 solutions per iteration", "statement": "Each iteration returns one solution for the given reference point and one for each of the k perturbed ones, and the perturbed reference points are q + ||q-f|| e_i.", "quantifier": "every k, reference point and solver outcome", "why_tests_cant": "all k and points", "anchors": ["desdeo_mcdm/interactive/ReferencePointMethod.py: ReferencePointMethod.handle_initial_request", "desdeo_mcdm/interactive/ReferencePointMethod.py: ReferencePointMethod.handle_request", "desdeo_mcdm/interactive/ReferencePointMethod.py: ReferencePointMethod.calculate_prp"]}
{"id": "C39", "title": "Reference point method: any number of iterations", "statement": "The history buffers never overflow: no number of iterations makes the method fail with an IndexError.", "quantifier": "every session length", "why_tests_cant": "unbounded session length", "anchors": ["desdeo_mcdm/interactive/ReferencePointMethod.py: ReferencePointMethod.handle_request"]}
{"id": "C40", "title": "Reference point method: the selected solution is returned", "statement": "Declaring satisfaction with index i on the most recent request returns exactly the i-th solution shown by it (0 the projected one, i the i-th perturbed) with its own decision vector, and changes nothing else.", "quantifier": "every session and index 0..k", "why_tests_cant": "all sessions", "anchors": ["desdeo_mcdm/interactive/ReferencePointMethod.py: ReferencePointMethod.handle_request", "desdeo_mcdm/interactive/ReferencePointMethod.py: RPMRequest.response"]}
{"id": "C41", "title": "Reference point method: reference point validation", "statement": "A reference point is accepted iff it is a numpy array with one entry per objective, none of them worse than the nadir.", "quantifier": "every reference point", "why_tests_cant": "all points", "anchors": ["desdeo_mcdm/interactive/ReferencePointMethod.py: validate_reference_point"]}
{"id": "C42", "title": "Reference point method: returned solutions are not dominated", "statement": "On a discrete problem the solution returned for an admissible reference point is never strictly dominated by another data row.", "quantifier": "every data set and reference point", "why_tests_cant": "sign errors in weights only show on some inputs", "anchors": ["desdeo_mcdm/interactive/ReferencePointMethod.py: ReferencePointMethod.solve_asf", "desdeo_mcdm/interactive/ReferencePointMethod.py: ReferencePointMethod.handle_initial_request"]}
{"id": "C43", "title": "NAUTILUS: no buffer overflow and correct counters in any session", "statement": "In every session of NAUTILUS (forward steps, short steps, steps back, changes of the total number of iterations, failing answers) every array access is within bounds, and without changes step_number + iterations_left = n + 1.", "quantifier": "every history", "why_tests_cant": "unbounded histories", "anchors": ["desdeo_mcdm/interactive/Nautilus.py: Nautilus.handle_initial_request", "desdeo_mcdm/interactive/Nautilus.py: Nautilus.handle_request"]}
{"id": "C44", "title": "NAUTILUS: convergence", "statement": "With unchanged preferences and projection f, the h-th iteration point is nadir + (h/n)(f - nadir), the reported distance is 100*h/n, and the n-th is f itself with its decision vector.", "quantifier": "every n >= 1, nadir and f in exact arithmetic", "why_tests_cant": "closed form for all n", "anchors": ["desdeo_mcdm/interactive/Nautilus.py: Nautilus.calculate_iteration_point", "desdeo_mcdm/interactive/Nautilus.py: Nautilus.calculate_distance", "desdeo_mcdm/interactive/Nautilus.py: Nautilus.handle_request"]}
{"id": "C45", "title": "NAUTILUS: no objective is ever impaired", "statement": "If every projection is <= the previous iteration point, iteration points are componentwise non-increasing and stay >= the projection, also for short steps.", "quantifier": "every session, in exact arithmetic (up to the rounding error in IEEE doubles)", "why_tests_cant": "all histories", "anchors": ["desdeo_mcdm/interactive/Nautilus.py: Nautilus.calculate_iteration_point", "desdeo_mcdm/interactive/Nautilus.py: Nautilus.handle_request"]}
{"id": "C46", "title": "NAUTILUS: preference validation", "statement": "Accepted preference information always yields positive finite weights: ranks are in 1..k, percentages are non-negative and add up to 100, one entry per objective.", "quantifier": "every preference", "why_tests_cant": "all values", "anchors": ["desdeo_mcdm/interactive/Nautilus.py: validate_preferences", "desdeo_mcdm/interactive/Nautilus.py: Nautilus.calculate_preferential_factors"]}
{"id": "C47", "title": "NAUTILUS: every validated answer produces a request", "statement": "A response that passes validation always results in a request or stop request being returned.", "quantifier": "every response and history", "why_tests_cant": "all key combinations", "anchors": ["desdeo_mcdm/interactive/Nautilus.py: validate_response", "desdeo_mcdm/interactive/Nautilus.py: Nautilus.handle_request"]}
{"id": "C48", "title": "NAUTILUS V2: directions of improvement from pairwise ratios", "statement": "Given validated pairwise ratios, calculate_doi ends and returns directions with delta_1 = 1 and delta_j = T*delta_i for every given ((i,j),T); their inverses are the weights of the achievement function.", "quantifier": "every list of pairs", "why_tests_cant": "termination and correctness for all pair graphs", "anchors": ["desdeo_mcdm/interactive/NautilusV2.py: NautilusV2.calculate_doi"]}
{"id": "C49", "title": "NAUTILUS V2: no buffer overflow in any session", "statement": "No history of answers, including changes of the number of remaining iterations, makes NAUTILUS V2 fail with an IndexError.", "quantifier": "every history", "why_tests_cant": "unbounded histories", "anchors": ["desdeo_mcdm/interactive/NautilusV2.py: NautilusV2.handle_request"]}
{"id": "C50", "title": "NAUTILUS V2: convergence and monotone iteration points", "statement": "With unchanged preferences the h-th iteration point is start + (h/n)(f-start), start being the given starting point, and the session stops after n iterations with f.", "quantifier": "every n >= 1, exact arithmetic", "why_tests_cant": "closed form for all n", "anchors": ["desdeo_mcdm/interactive/NautilusV2.py: NautilusV2.handle_request", "desdeo_mcdm/interactive/NautilusV2.py: NautilusV2.calculate_iteration_point"]}
{"id": "C51", "title": "Pareto Navigator: the linear program is the min-max problem", "statement": "The constraint system built for linprog is satisfied by (zeta, z) iff w_i*(z_i - ref_i) <= zeta for all i and A z <= b; hence an optimal answer minimises the scaled maximum deviation from current + alpha*direction over the polyhedral approximation.", "quantifier": "every hull, reference point, direction and alpha", "why_tests_cant": "equivalence for all real inputs", "anchors": ["desdeo_mcdm/interactive/ParetoNavigator.py: ParetoNavigator.construct_lppp_A", "desdeo_mcdm/interactive/ParetoNavigator.py: ParetoNavigator.solve_linear_parametric_problem"]}
{"id": "C52", "title": "Pareto Navigator: ideal and nadir widen monotonically", "statement": "Adding solutions never raises the ideal nor lowers the nadir, and both enclose every added objective vector.", "quantifier": "every sequence of added solutions", "why_tests_cant": "all histories", "anchors": ["desdeo_mcdm/interactive/ParetoNavigator.py: ParetoNavigator.handle_solution_request"]}
{"id": "C53", "title": "Pareto Navigator: step back reverses and forward continues", "statement": "A response asking to step back moves against the current direction and one not asking moves along it.", "quantifier": "every history of step_back answers", "why_tests_cant": "history dependent sign", "anchors": ["desdeo_mcdm/interactive/ParetoNavigator.py: ParetoNavigator.handle_request"]}
{"id": "C54", "title": "Pareto Navigator: classification gives a reference point in the ideal-nadir box", "statement": "Classification '<' maps to the ideal, '>' to the nadir, '=' to the current value (componentwise), and the implied reference point lies inside the ideal-nadir box.", "quantifier": "every classification and current solution", "why_tests_cant": "all classifications", "anchors": ["desdeo_mcdm/interactive/ParetoNavigator.py: ParetoNavigator.classification_to_ref_point"]}
{"id": "C55", "title": "Pareto Navigator: speed validation", "statement": "Accepted speeds are 1..5 and give a step size in (0, 0.1].", "quantifier": "every speed", "why_tests_cant": "all types and values", "anchors": ["desdeo_mcdm/interactive/ParetoNavigator.py: ParetoNavigatorRequest.response", "desdeo_mcdm/interactive/ParetoNavigator.py: ParetoNavigator.calculate_speed"]}
{"id": "C56", "title": "PAINT: result is a subset of the generated polytopes with no dominance between them", "statement": "The approximation consists of some of the generated polytopes, and no polytope in it dominates another one.", "quantifier": "every set of outcomes", "why_tests_cant": "all outcomes of the pairwise tests", "anchors": ["desdeo_mcdm/approximation/PAINT.py: PAINT.approximate"]}
{"id": "C57", "title": "PAINT: nothing is removed without reason", "statement": "Every polytope discarded by Rule 1 is inherently dominated and every one discarded by Rule 2 is in conflict with one that is kept.", "quantifier": "every set of outcomes", "why_tests_cant": "maximality over all subsets", "anchors": ["desdeo_mcdm/approximation/PAINT.py: PAINT.approximate"]}
{"id": "C58", "title": "PAINT: perturbed outcomes are what is approximated", "statement": "After perturbing the outcomes, approximate works on the perturbed outcomes.", "quantifier": "every outcome set", "why_tests_cant": "attribute aliasing", "anchors": ["desdeo_mcdm/approximation/PAINT.py: PAINT.perturbate", "desdeo_mcdm/approximation/PAINT.py: PAINT.approximate"]}
{"id": "C59", "title": "Payoff table: ideal and nadir", "statement": "The payoff-table method returns ideal <= nadir componentwise, the ideal is the i-th objective of the i-th single-objective optimum, and the nadir is attained by and not below any row of the table.", "quantifier": "every problem, number of objectives and solver outcome", "why_tests_cant": "all solver outcomes", "anchors": ["desdeo_mcdm/utilities/solvers.py: payoff_table_method_general", "desdeo_mcdm/utilities/solvers.py: payoff_table_method", "desdeo_mcdm/utilities/solvers.py: weighted_scalarizer"]}
{"id": "C60", "title": "Pareto front representation: only non-dominated solutions", "statement": "The representation returned contains no solution dominated by another one in it, and the i-th objective vector belongs to the i-th decision vector.", "quantifier": "every problem and grid", "why_tests_cant": "all solver outcomes", "anchors": ["desdeo_mcdm/utilities/solvers.py: solve_pareto_front_representation_general"]}
{"id": "C61", "title": "Package exports: exception classes", "statement": "Catching the exception class exported by desdeo_mcdm.interactive for a method catches the exceptions that method raises.", "quantifier": "every exported method and exception", "why_tests_cant": "name shadowing between modules", "anchors": ["desdeo_mcdm/interactive/__init__.py: __all__", "desdeo_mcdm/interactive/Nautilus.py: NautilusException", "desdeo_mcdm/interactive/NautilusV2.py: NautilusException"]}
{"id": "C62", "title": "E-NAUTILUS: every shown point stays between ideal and nadir", "statement": "In every session whose steps back repeat earlier requests and whose changed iteration counts are positive, every intermediate point of every request ever issued, and the objective vector of every stop request, lies componentwise between ideal and nadir; every request shows at least one iteration left and carries one bound vector per point.", "quantifier": "all fronts inside the ideal-nadir box, all histories of answers (stale requests and raising calls included)", "why_tests_cant": "needs an invariant over unbounded histories and all fronts", "anchors": ["desdeo_mcdm/interactive/ENautilus.py: ENautilus.iterate, handle_request, calculate_intermediate_points, calculate_bounds"]}
{"id": "C63", "title": "Navigator: a failed answer changes nothing but the first speed", "statement": "Whatever the history, an accepted answer to any issued request either succeeds or raises ValueError; when it raises, the method object is unchanged, except that in the first step the speed of the answer has been stored.", "quantifier": "every history, every issued request, every accepted response, every scalarizing function", "why_tests_cant": "Failures depend on which rows are reachable and on stored bounds after arbitrary histories.", "anchors": ["desdeo_mcdm/interactive/NautilusNavigator.py:NautilusNavigator.update", "desdeo_mcdm/interactive/NautilusNavigator.py:NautilusNavigator.solve_nautilus_asf_problem"]}
{"id": "C64", "title": "Navigator: what the reported bounds are", "statement": "After a forward answer the lower (upper) bound of each objective is the least (greatest) value of that objective among the previously reachable solutions which satisfy the user bounds of the answer and are no worse than the navigation point in every other objective; when there is none, the previous bound is kept.", "quantifier": "every front of at least two objectives inside [ideal, nadir], every history and answer; any ordered number type incl. IEEE doubles", "why_tests_cant": "A minimum over a filtered set for every front, navigation point and bounds.", "anchors": ["desdeo_mcdm/interactive/NautilusNavigator.py:NautilusNavigator.calculate_bounds"]}
{"id": "C65", "title": "NIMBUS: construction", "statement": "A constructed NIMBUS session starts with an empty archive and shows the solution obtained by projecting the given starting point (by default the middle of the ideal-nadir box); a starting point that does not have one entry per objective and an initial optimisation that does not succeed are reported as NimbusException.", "quantifier": "every problem, ideal, nadir, starting point and solver outcome", "why_tests_cant": "all starting points and solver outcomes", "anchors": ["desdeo_mcdm/interactive/NIMBUS.py: NIMBUS.__init__"]}
{"id": "C66", "title": "Reference point method: a failed iteration loses nothing", "statement": "When an iteration raises, the solutions shown by the request on the table can still be chosen.", "quantifier": "every history with failing iterations", "why_tests_cant": "failures depend on solver outcomes after arbitrary histories", "anchors": ["desdeo_mcdm/interactive/ReferencePointMethod.py: ReferencePointMethod.handle_request"]}
{"id": "C67", "title": "NAUTILUS: solutions satisfy the constraints of the problem", "statement": "The solution a session of NAUTILUS or NAUTILUS 2 ends with satisfies the constraints of the problem.", "quantifier": "every constrained problem and session", "why_tests_cant": "all problems and optimizer outcomes", "anchors": ["desdeo_mcdm/interactive/Nautilus.py: Nautilus.handle_request, solve_asf", "desdeo_mcdm/interactive/NautilusV2.py: NautilusV2.solve_asf"]}
{"id": "C68", "title": "NAUTILUS: a step back is possible from every iteration point", "statement": "Every request that is not a stop request can be answered with a step back, also the one that shows the last iteration point.", "quantifier": "every session and answer", "why_tests_cant": "all histories", "anchors": ["desdeo_mcdm/interactive/Nautilus.py: Nautilus.handle_request"]}
{"id": "C69", "title": "NAUTILUS: constructor checks", "statement": "A method object is constructed exactly when ideal, nadir (and, for NAUTILUS 2, the starting point) have the same length, the starting point is not worse than the nadir, and names and minimize, if given, have one entry per objective; otherwise NautilusException is raised.", "quantifier": "every combination of arguments", "why_tests_cant": "all combinations", "anchors": ["desdeo_mcdm/interactive/Nautilus.py: Nautilus.__init__", "desdeo_mcdm/interactive/NautilusV2.py: NautilusV2.__init__"]}
{"id": "C70", "title": "NAUTILUS: a call that raises can be repeated", "statement": "When an answer makes iterate raise, answering the same request again as it should be answered continues the session as if the failing call had not been made.", "quantifier": "every history with failing calls", "why_tests_cant": "failing calls after arbitrary histories", "anchors": ["desdeo_mcdm/interactive/Nautilus.py: Nautilus.handle_request"]}
{"id": "C71", "title": "NAUTILUS: what the reported bounds are", "statement": "The upper bounds of every request are its iteration point; lower bound i is objective i at the solution of the i-th epsilon-constraint problem bounded by the iteration point. With an exact optimizer the bounds enclose everything that can still be reached (every attainable vector nowhere worse than the iteration point), and they get tighter as iteration points improve.", "quantifier": "every history (both methods), every request issued", "why_tests_cant": "all histories and all optimizers", "anchors": ["desdeo_mcdm/interactive/Nautilus.py: Nautilus.calculate_bounds, handle_request", "desdeo_mcdm/interactive/NautilusV2.py: NautilusV2.calculate_bounds"]}
{"id": "C72", "title": "Pareto Navigator: where the navigation starts", "statement": "After the initial answer the navigation request shows, as current solution, an objective vector: the given solution that was preferred, or the solution found for the given reference point, with the ideal and nadir of the method.", "quantifier": "every initial answer, problem and scalar optimizer", "why_tests_cant": "all problems and answers", "anchors": ["desdeo_mcdm/interactive/ParetoNavigator.py: ParetoNavigator.handle_initial_request", "desdeo_mcdm/interactive/ParetoNavigator.py: ParetoNavigator.solve_asf"]}
{"id": "C73", "title": "Pareto Navigator: the solution shown and the final solution", "statement": "A solution shown belongs to the approximate solution of the request that was answered: for a data problem a row with the least achievement value (so no row is better in every objective), else what the scalar optimizer found, evaluated. The final solution is the one that was shown and accepted.", "quantifier": "every session, every problem", "why_tests_cant": "all histories", "anchors": ["desdeo_mcdm/interactive/ParetoNavigator.py: ParetoNavigator.handle_solution_request", "desdeo_mcdm/interactive/ParetoNavigator.py: ParetoNavigator.handle_request", "desdeo_mcdm/interactive/ParetoNavigator.py: ParetoNavigator.solve_asf", "desdeo_mcdm/interactive/ParetoNavigator.py: ParetoNavigatorStopRequest"]}
{"id": "C74", "title": "Pareto Navigator: every accepted answer is answered", "statement": "An answer that the request accepts is followed by the next request: a navigation step by a navigation request, a solution that is turned down by a navigation request, a request to show the solution by it.", "quantifier": "every session and answer", "why_tests_cant": "liveness over all histories", "anchors": ["desdeo_mcdm/interactive/ParetoNavigator.py: ParetoNavigator.iterate", "desdeo_mcdm/interactive/ParetoNavigator.py: ParetoNavigator.handle_request", "desdeo_mcdm/interactive/ParetoNavigator.py: ParetoNavigator.handle_solution_request"]}
{"id": "C75", "title": "Pareto Navigator: a failed answer can be repeated", "statement": "A navigation call that raises leaves solutions, bounds, current solution and approximation as they were; answering again with a speed and a direction has the effect it would have had without the failed call.", "quantifier": "every state, answer and failure", "why_tests_cant": "failing calls after arbitrary histories", "anchors": ["desdeo_mcdm/interactive/ParetoNavigator.py: ParetoNavigator.handle_request"]}
{"id": "C76", "title": "Pareto Navigator: navigation stays on the boundary of the approximation", "statement": "After a navigation step no point of the polyhedral approximation is better than the new solution in every objective.", "quantifier": "every session and navigation answer", "why_tests_cant": "all polytopes and directions", "anchors": ["desdeo_mcdm/interactive/ParetoNavigator.py: ParetoNavigator.solve_linear_parametric_problem", "desdeo_mcdm/interactive/ParetoNavigator.py: ParetoNavigator.handle_request"]}
{"id": "C77", "title": "Pareto Navigator: attainable targets are attained", "statement": "If some point of the approximation is nowhere worse than the moved target current + a*(reference point - current), so is the new solution.", "quantifier": "every session and navigation answer", "why_tests_cant": "all polytopes and directions", "anchors": ["desdeo_mcdm/interactive/ParetoNavigator.py: ParetoNavigator.solve_linear_parametric_problem", "desdeo_mcdm/interactive/ParetoNavigator.py: ParetoNavigator.construct_lppp_A"]}
{"id": "C78", "title": "Pareto Navigator: rejected answers raise ParetoNavigatorException", "statement": "An answer the request does not accept is rejected by the setter with a ParetoNavigatorException.", "quantifier": "every answer to every request", "why_tests_cant": "all answers", "anchors": ["desdeo_mcdm/interactive/ParetoNavigator.py: ParetoNavigatorInitialRequest.response", "desdeo_mcdm/interactive/ParetoNavigator.py: ParetoNavigatorRequest.response", "desdeo_mcdm/interactive/ParetoNavigator.py: ParetoNavigatorSolutionRequest.response"]}
{"id": "C79", "title": "Pareto Navigator: the approximation grows and contains the current solution", "statement": "A solution that is shown and turned down becomes part of the approximation and no point of it is lost; in a session that starts from a given solution the current solution is always a point of the approximation.", "quantifier": "every session, exact convex hull", "why_tests_cant": "all histories", "anchors": ["desdeo_mcdm/interactive/ParetoNavigator.py: ParetoNavigator.handle_solution_request", "desdeo_mcdm/interactive/ParetoNavigator.py: ParetoNavigator.polyhedral_set_eq"]}
{"id": "C80", "title": "PAINT: order of the result and which polytope survives a conflict", "statement": "The polytopes of the result are ordered by number of different vertices, then by least index; a polytope that passes Rule 1 is only removed in favour of one with at least as many different vertices.", "quantifier": "every set of outcomes and every outcome of the tests", "why_tests_cant": "all outcomes of the pairwise tests", "anchors": ["desdeo_mcdm/approximation/PAINT.py: PAINT.sort_wrt_entries", "desdeo_mcdm/approximation/PAINT.py: PAINT.approximate"]}
{"id": "C81", "title": "PAINT: the outcomes are part of the approximation", "statement": "If no given outcome dominates another, every outcome is in the approximation (its own polytope is never removed).", "quantifier": "every set of mutually nondominated outcomes", "why_tests_cant": "all outcome sets", "anchors": ["desdeo_mcdm/approximation/PAINT.py: PAINT.approximate"]}
{"id": "C82", "title": "PAINT: the approximation is inherently nondominated and maximal", "statement": "No point of the approximation (union of the convex hulls of its polytopes) dominates another one or is in dominance with an outcome; and no further generated polytope could be added.", "quantifier": "every set of outcomes, exact tests", "why_tests_cant": "quantifies over all points of all hulls", "anchors": ["desdeo_mcdm/approximation/PAINT.py: PAINT.approximate"]}
{"id": "C83", "title": "PAINT: exceptions", "statement": "The constructor raises PAINTException exactly if there are not more outcomes than objectives; approximate raises PAINTException if the Delaunay triangulation cannot be built, and otherwise returns whenever the tests return.", "quantifier": "every set of outcomes", "why_tests_cant": "all shapes and loop states", "anchors": ["desdeo_mcdm/approximation/PAINT.py: PAINT.__init__", "desdeo_mcdm/approximation/PAINT.py: PAINT.approximate", "desdeo_mcdm/approximation/PAINT.py: PAINTException"]}
{"id": "C84", "title": "Weighted scalarizer: unit weights select an objective", "statement": "With the weights that are one for objective i and zero for the others, the scalarized value is the value of objective i.", "quantifier": "every number of objectives, index and outcome", "why_tests_cant": "all objective values, including infinite ones", "anchors": ["desdeo_mcdm/utilities/solvers.py: weighted_scalarizer", "desdeo_mcdm/utilities/solvers.py: payoff_table_method_general"]}
{"id": "C85", "title": "Payoff table: the nadir bounds the Pareto front", "statement": "With an exact solver that never fails, no Pareto optimal solution is worse in an objective than the nadir of the payoff table, and each component of the nadir is attained by a Pareto optimal solution.", "quantifier": "every problem and exact solver", "why_tests_cant": "quantifies over all problems and all of their Pareto optimal solutions", "anchors": ["desdeo_mcdm/utilities/solvers.py: payoff_table_method", "desdeo_mcdm/utilities/solvers.py: payoff_table_method_general"]}
{"id": "C86", "title": "Pareto front representation: constraints are respected", "statement": "Every solution returned satisfies the constraints of the problem.", "quantifier": "every problem with constraints, step and solver", "why_tests_cant": "all problems and solver outcomes", "anchors": ["desdeo_mcdm/utilities/solvers.py: solve_pareto_front_representation_general", "desdeo_mcdm/utilities/solvers.py: solve_pareto_front_representation"]}
{"id": "C87", "title": "Pareto front representation: nothing is lost", "statement": "The outcome of each successful optimisation is returned or is dominated by one that is returned, also when other optimisations fail.", "quantifier": "every pattern of failing and succeeding optimisations", "why_tests_cant": "all patterns of solver failures", "anchors": ["desdeo_mcdm/utilities/solvers.py: solve_pareto_front_representation_general"]}
{"id": "C88", "title": "Pareto front representation: the reference points", "statement": "The reference points are exactly the points of the evenly spaced grid between ideal and nadir, both corners included if the steps meet them; each is used once, in lexicographic order; every point of the box has a reference point less than one step below it; solutions are returned in that order and nothing else is asked of the solver.", "quantifier": "every ideal, nadir, step and offset", "why_tests_cant": "all grid sizes and dimensions", "anchors": ["desdeo_mcdm/utilities/solvers.py: solve_pareto_front_representation_general"]}
{"id": "C89", "title": "Pareto front representation: unknown ideal and nadir", "statement": "If the ideal or the nadir is not known (None, the default, or infinite), both are computed with the payoff table method and the result is as if they had been given.", "quantifier": "every way in which ideal and nadir are unknown", "why_tests_cant": "all mixtures of finite and infinite entries", "anchors": ["desdeo_mcdm/utilities/solvers.py: solve_pareto_front_representation_general", "desdeo_mcdm/utilities/solvers.py: solve_pareto_front_representation", "desdeo_mcdm/utilities/solvers.py: payoff_table_method_general"]}
{"id": "C90", "title": "Pareto front representation: validation of the step", "statement": "A positive float, or an array of positive floats with one entry per objective, is accepted; another type, rank or length raises MCDMUtilityException, and so do an ideal and a nadir of different lengths; a zero or negative step gives an error or an empty result, never a wrong one.", "quantifier": "every step, ideal and nadir", "why_tests_cant": "all shapes and values of the step", "anchors": ["desdeo_mcdm/utilities/solvers.py: solve_pareto_front_representation_general", "desdeo_mcdm/utilities/solvers.py: MCDMUtilityException"]}
{"id": "C91", "title": "NIMBUS: plot requests", "statement": "Every request other than a classification request comes with a plot request that shows exactly the objective vectors of that request, in the same order, under the problem's objective names, together with the problem's ideal and nadir; a classification request comes without one. Creating the plot never makes an accepted answer fail.", "quantifier": "every problem and every history of iterate calls, stale and failing calls included", "why_tests_cant": "all histories, all numbers of solutions shown (also none)", "anchors": ["desdeo_mcdm/interactive/NIMBUS.py: create_plot_request", "desdeo_mcdm/interactive/NIMBUS.py: request_stop", "desdeo_mcdm/interactive/NIMBUS.py: request_most_preferred_solution", "desdeo_mcdm/interactive/NIMBUS.py: iterate"]}
{"id": "C92", "title": "Navigator: a reference point given through an array", "statement": "A session in which reference points are given as array objects is the session in which their contents at the time of each answer are given: writing into an array, before or after it was handed over, has no other effect, so a changed reference point always redirects the navigation.", "quantifier": "every interleaving of array creation, in-place writes and answers", "why_tests_cant": "all interleavings of writes and answers", "anchors": ["desdeo_mcdm/interactive/NautilusNavigator.py: NautilusNavigator.update", "desdeo_mcdm/interactive/NautilusNavigator.py: NautilusNavigator.handle_request"]}
{"id": "C93", "title": "NIMBUS: which accepted answers are carried out", "statement": "On a data problem an accepted answer to the awaited request (one classification per objective, finite levels, numbers of solutions int() can read) is carried out exactly when it can be: a classification when some data row honours it, a choice of solutions to continue with unless it names exactly one; saving and choosing always. Otherwise the call raises (ValueError, IndexError) and nothing changes.", "quantifier": "all data problems, histories (including repeated, unanswered and failing calls), requests and accepted answers", "why_tests_cant": "all histories and answers", "anchors": ["desdeo_mcdm/interactive/NIMBUS.py: NIMBUS.iterate", "desdeo_mcdm/interactive/NIMBUS.py: NIMBUS.calculate_new_solutions", "desdeo_mcdm/interactive/NIMBUS.py: NIMBUS.compute_intermediate_solutions"]}
{"id": "C94", "title": "NIMBUS: a session can always be ended", "statement": "Whatever has happened, an unfinished session on data can be brought to its stop request by at most four more answers, starting from some request already returned, and by at most five more answers any archived solution can be made the final one; with a continuous problem three answers are enough once new solutions have been shown.", "quantifier": "all histories of all sessions, including repeated requests and failing calls; all archived solutions", "why_tests_cant": "reachability from every state of an infinite state space", "anchors": ["desdeo_mcdm/interactive/NIMBUS.py: NIMBUS.iterate", "desdeo_mcdm/interactive/NIMBUS.py: NIMBUS.handle_most_preferred_request"]}
{"id": "C95", "title": "Requests and responses as objects", "statement": "Assigning a response to a request either fails and changes nothing (an earlier answer stays in force) or makes it the answer: iterating the request later acts on the last accepted dictionary with the content it had, whatever else has been called, unless the request is answered again or that dictionary is edited. As long as the caller edits an answering dictionary only into an acceptable one, any interleaving of creating, editing, answering and iterating, failing calls included, stays among the histories the other properties speak of. (Refuted without that proviso: a dictionary is checked when assigned, not when used.)", "quantifier": "all interleavings of creating and editing dictionaries, answering and iterating requests; all six interactive methods", "why_tests_cant": "every interleaving of aliasing, repeated answers and failing calls", "anchors": ["desdeo_mcdm/interactive/NIMBUS.py: NimbusClassificationRequest.response", "desdeo_mcdm/interactive/ENautilus.py: ENautilusRequest.response", "desdeo_mcdm/interactive/NautilusNavigator.py: NautilusNavigatorRequest.response", "desdeo_mcdm/interactive/Nautilus.py: NautilusRequest.response", "desdeo_mcdm/interactive/ReferencePointMethod.py: RPMRequest.response", "desdeo_mcdm/interactive/ParetoNavigator.py: ParetoNavigatorRequest.response"]}
{"id": "C96", "title": "E-NAUTILUS and Navigator: the ideal and nadir shown", "statement": "Every request of an E-NAUTILUS or NAUTILUS Navigator session shows the ideal and the nadir point given at construction, and the front, ideal, nadir and decision vectors the method works with are those given at construction, whatever has been answered and whatever calls failed.", "quantifier": "all histories, all fronts", "why_tests_cant": "all histories", "anchors": ["desdeo_mcdm/interactive/ENautilus.py: ENautilusInitialRequest.init_with_method", "desdeo_mcdm/interactive/ENautilus.py: ENautilus.handle_request", "desdeo_mcdm/interactive/NautilusNavigator.py: NautilusNavigatorRequest.init_with_method"]}
{"id": "C97", "title": "Navigator: constructor accepts exactly the consistent shapes", "statement": "The constructor of NAUTILUS Navigator accepts its arguments exactly when the front is two-dimensional, the ideal and nadir have the same shape with as many entries as the front has columns, and the decision vectors, if given, are as many as the front's rows; otherwise it raises a NautilusNavigatorException (an IndexError for 0-d arguments).", "quantifier": "all shapes of the arguments", "why_tests_cant": "all shapes", "anchors": ["desdeo_mcdm/interactive/NautilusNavigator.py: NautilusNavigator.__init__"]}
{"id": "C98", "title": "Reference point method: constructor checks", "statement": "A method object is constructed exactly when ideal and nadir have the same length and names and minimize, if given, have one entry per objective; otherwise RPMException is raised.", "quantifier": "every combination of arguments", "why_tests_cant": "all combinations", "anchors": ["desdeo_mcdm/interactive/ReferencePointMethod.py: ReferencePointMethod.__init__"]}
{"id": "C99", "title": "NIMBUS: shown solutions are weakly Pareto optimal in the data", "statement": "On a data problem, the starting solution, every new or intermediate solution NIMBUS shows, every archived solution and the final one is a row of the data such that no row of the data is smaller in every objective, as long as the achievement functions prefer rows that are smaller in every objective. In particular the first solution of a classification, sought only among the rows respecting it, is weakly optimal among all rows. With the documented achievement functions this holds for every session whose classifications have one entry per objective.", "quantifier": "every data set, ideal, nadir and starting point; every history of accepted answers (any request answered again, failing calls included); every achievement function that prefers better rows", "why_tests_cant": "quantifies over all data sets and all histories of a session; a dominated row appears only for particular reference points", "anchors": ["desdeo_mcdm/interactive/NIMBUS.py: NIMBUS.__init__, calculate_new_solutions, compute_intermediate_solutions, iterate"]}
{"id": "C100", "title": "All methods: a rejected answer is rejected with the method's own exception", "statement": "Assigning an answer that a request does not accept raises the exception class of the method (NautilusNavigatorException, NimbusException, RPMException, NautilusException), whatever is wrong or missing in the answer.", "quantifier": "every request, every answer (any keys present or absent, any types)", "why_tests_cant": "quantifies over all malformed answers", "anchors": ["desdeo_mcdm/interactive/NautilusNavigator.py: NautilusNavigatorRequest.validator", "desdeo_mcdm/interactive/NIMBUS.py: validator of the four requests", "desdeo_mcdm/interactive/ReferencePointMethod.py: validate_reference_point, response setters", "desdeo_mcdm/interactive/Nautilus.py, NautilusV2.py: validate_response, validate_preferences, validate_n2_preferences"]}
{"id": "C101", "title": "Navigator: the navigation follows the reference point of the answer", "statement": "After an accepted forward answer the navigation point moves towards the reachable solution that is best for the reference point of that answer; in particular a reference point that differs from the previous one redirects the navigation.", "quantifier": "every front, every history, every reference point", "why_tests_cant": "a change is ignored only for particular magnitudes of the objectives; needs all histories and all numbers", "anchors": ["desdeo_mcdm/interactive/NautilusNavigator.py: NautilusNavigator.update (np.allclose)"]}
{"id": "C102", "title": "NAUTILUS and NAUTILUS 2: which answers are accepted", "statement": "NAUTILUS 2 accepts exactly: one positive component per objective (method 1), the same with one of them equal to 1 (method 2), or one ratio entry less than objectives, each naming two of the objectives 1..k with a positive ratio, together naming every objective (method 3), with a positive number of iterations. Later requests of both methods accept an answer exactly when the step back flag is given and not set at the nadir, and the preferences are kept or acceptable ones are given.", "quantifier": "every answer: any keys, any Python types, any number of objectives", "why_tests_cant": "the accepted set is infinite and heterogeneous; the boundary cases (NaN, too many entries, one-element pairs) are easy to miss", "anchors": ["desdeo_mcdm/interactive/NautilusV2.py: validate_n2_preferences, validate_response", "desdeo_mcdm/interactive/Nautilus.py: validate_response, validate_n_iterations"]}
{"id": "C103", "title": "All methods: iterating an unanswered request", "statement": "Passing a request to iterate without having set its response never changes the session: the call raises (TypeError; NIMBUS: or NimbusException for a request of another phase). Pareto Navigator: leaving a request other than the first unanswered is the same as answering it with an empty response.", "quantifier": "every request and every state of every method", "why_tests_cant": "must hold in every state, also in those reached after failures", "anchors": ["desdeo_mcdm/interactive/NautilusNavigator.py: NautilusNavigator.iterate", "desdeo_mcdm/interactive/NIMBUS.py: NIMBUS.iterate", "desdeo_mcdm/interactive/ReferencePointMethod.py: ReferencePointMethod.iterate", "desdeo_mcdm/interactive/Nautilus.py: Nautilus.iterate", "desdeo_mcdm/interactive/NautilusV2.py: NautilusV2.iterate", "desdeo_mcdm/interactive/ParetoNavigator.py: ParetoNavigator.iterate"]}
{"id": "C104", "title": "Reference point method: the result depends on the reference point alone", "statement": "Answering any request of the method with a given reference point gives the same next request (or the same exception) whatever happened before, and from there on the whole session is the same.", "quantifier": "every pair of histories of the method on one problem, every reference point, every later sequence of answers", "why_tests_cant": "compares all pairs of histories and all continuations", "anchors": ["desdeo_mcdm/interactive/ReferencePointMethod.py: ReferencePointMethod.handle_initial_request, handle_request"]}
{"id": "C105", "title": "Navigator: the order of the solutions in the front does not matter", "statement": "Two NAUTILUS Navigator objects built with the same ideal and nadir points and the same solutions in a different order, which receive the same answers, show the same in every request (bounds, distance, navigation point, step counters, and corresponding reachable rows), accept the same answers, fail with the same exceptions and end with the same set of reachable solutions, provided the achievement function does not value two different solutions of the front equally for a reference point used.", "quantifier": "every front, every permutation of its rows (and of the decision variables alongside), every history of answers", "why_tests_cant": "quantifies over all permutations and all pairs of parallel histories", "anchors": ["desdeo_mcdm/interactive/NautilusNavigator.py: NautilusNavigator.__init__, iterate, handle_request, solve_nautilus_asf_problem, calculate_bounds, calculate_reachable_point_indices"]}
{"id": "C106", "title": "A session can be ended from every request", "statement": "From every request a session of E-NAUTILUS, NAUTILUS Navigator, NAUTILUS, NAUTILUS 2, the Reference Point Method or Pareto Navigator has issued, a small fixed number of accepted answers, each given to the request returned for the one before, ends the session with a stop request: one for NAUTILUS and NAUTILUS 2 (after the initial request), one for NAUTILUS Navigator, two for E-NAUTILUS (with any of the points the request shows), one for the Reference Point Method right after a request was returned and two from any state when the solver does not fail, two for Pareto Navigator (one for a shown solution). The stop request carries a solution of the problem, whatever was answered before and, except for Pareto Navigator, also after answers that failed. (NIMBUS: C94.)", "quantifier": "every problem or front, every history of accepted answers (failing ones included), every request issued so far (Pareto Navigator: the latest one)", "why_tests_cant": "reachability of a stop request from every reachable state of every session; tests only follow particular sessions", "anchors": ["desdeo_mcdm/interactive/ENautilus.py: handle_request", "desdeo_mcdm/interactive/NautilusNavigator.py: handle_request", "desdeo_mcdm/interactive/Nautilus.py: handle_request", "desdeo_mcdm/interactive/NautilusV2.py: handle_request", "desdeo_mcdm/interactive/ReferencePointMethod.py: handle_request", "desdeo_mcdm/interactive/ParetoNavigator.py: handle_request, handle_solution_request"]}
{"id": "C107", "title": "Pareto Navigator: which exceptions an accepted answer can raise", "statement": "An answer that a request has accepted raises ParetoNavigatorException exactly when the scalar optimizer or the linear programming solver ends without success; every other exception is the solver's own or comes from one of a few named situations: a preferred solution that does not exist (IndexError), a speed given as text, no direction given so far, a start from a reference point on a data problem (TypeError, IndexError), or a target with the wrong number of components (IndexError, ValueError). The constructor raises ParetoNavigatorException exactly for a problem without data and without given solutions.", "quantifier": "every session, every accepted answer, every problem and every behaviour of optimizer, linear programming solver and convex hull", "why_tests_cant": "the solvers' behaviours and the histories are unbounded; a test shows that one exception can occur, not that no other one can", "anchors": ["desdeo_mcdm/interactive/ParetoNavigator.py:ParetoNavigator.iterate", "desdeo_mcdm/interactive/ParetoNavigator.py:handle_initial_request", "desdeo_mcdm/interactive/ParetoNavigator.py:handle_request", "desdeo_mcdm/interactive/ParetoNavigator.py:handle_solution_request", "desdeo_mcdm/interactive/ParetoNavigator.py:solve_asf", "desdeo_mcdm/interactive/ParetoNavigator.py:solve_linear_parametric_problem"]}
{"id": "C108", "title": "NAUTILUS and NAUTILUS 2: a full step back undoes the last step", "statement": "After a step forward and any number of steps back (short, full or failing) from the point it led to, a full step back with new preferences that leads to an iteration point gives exactly the request that a step forward with these preferences would have given in the first place, and leaves the method in exactly the same state, so that the session continues as if the undone answers had never been given; likewise for the first answer of a session.", "quantifier": "every state of the method object, every step forward, every sequence of steps back, every pair of preferences, every optimizer (a function of its arguments), both methods", "why_tests_cant": "the sequences of steps back and the later behaviours to be compared are unbounded", "anchors": ["desdeo_mcdm/interactive/Nautilus.py:Nautilus.handle_request", "desdeo_mcdm/interactive/Nautilus.py:Nautilus.handle_initial_request", "desdeo_mcdm/interactive/NautilusV2.py:NautilusV2.handle_request", "desdeo_mcdm/interactive/NautilusV2.py:NautilusV2.handle_initial_request"]}
{"id": "C109", "title": "Pareto front representation: the reference points in floating point", "statement": "In IEEE double arithmetic solve_pareto_front_representation uses every point a whole number of steps above the lower corner and not beyond the upper corner as reference point, up to the offset eps, and no point more than twice eps beyond the upper corner; so every point of the box between ideal and nadir has a reference point less than one step (and eps) below it, and the upper corner is used if it is a whole number of steps away.", "quantifier": "every finite ideal, nadir, step and eps", "why_tests_cant": "Whether the last reference point is lost depends on the rounding of (stop + eps - start) / step for every scale of the data; a test sees a few scales.", "anchors": ["desdeo_mcdm/utilities/solvers.py:solve_pareto_front_representation_general"]}
{"id": "C110", "title": "NIMBUS: what was archived earlier is only listed, it does not change the session", "statement": "At any classification request of a NIMBUS session, the rest of the session is the one of a method object with the same current solution and an empty archive: for the same answers (with the indices into lists of solutions counted behind the archived ones) the same requests, solutions and exceptions come back, the archived solutions merely being listed before the others. Two sessions of the same problem waiting with the same current solution therefore go on alike, whatever happened before (on data, the same objective vector is enough).", "quantifier": "every problem, achievement function and scalar solver, every starting point and history, every sequence of answers (accepted or not)", "why_tests_cant": "It relates two unbounded executions: every reachable state with any archive to the execution without it, for every continuation; a test compares a few.", "anchors": ["desdeo_mcdm/interactive/NIMBUS.py: iterate, save_solutions_to_archive, handle_save_request, handle_intermediate_solutions_request, compute_intermediate_solutions, request_most_preferred_solution, handle_most_preferred_request, calculate_new_solutions"]}
{"id": "C111", "title": "Navigator: adding a constant to an objective changes nothing else", "statement": "If a constant is added to every value of an objective in the front, the ideal, the nadir, and in every answer's reference point and bounds, the NAUTILUS Navigator shows the same session: every vector it shows differs by exactly those constants, and the reachable solutions, the distance, the step counters, the speed, the accepted answers and the exceptions are the same.", "quantifier": "every front, every vector of constants, every history of answers (forward, back, stop)", "why_tests_cant": "A test compares one pair of data sets for one session; the relation must hold for all constants and all histories of two objects.", "anchors": ["desdeo_mcdm/interactive/NautilusNavigator.py: NautilusNavigator.update", "desdeo_mcdm/interactive/NautilusNavigator.py: calculate_navigation_point, calculate_bounds, calculate_distance, solve_nautilus_asf_problem"]}
{"id": "C112", "title": "E-NAUTILUS: changing the units of the objectives changes the units of what is shown, and nothing else", "statement": "Give E-NAUTILUS the same front, ideal and nadir with every objective measured in another unit (multiplied by a positive factor of its own and shifted by a constant of its own), and answer both objects in the same way. Then, provided the clusterings of the two pick corresponding solutions, the two objects stay in step: the same responses are accepted, the same calls raise the same exceptions, every point, lower bound and upper bound shown by one is the other's in the new units, and so are the ideal, the nadir and the final point; the numbers of points and of iterations left are equal. If all objectives have the same factor (the constants may differ), the distances shown and the decision vector returned at the end are also equal.", "quantifier": "all Pareto fronts with any number of objectives and rows (with infinities and NaN), ideals, nadirs, decision vectors (one per row), positive factors and constants per objective, all clusterings that pick corresponding rows, all histories of requests, answers (valid ones, steps back included) and unanswered calls", "why_tests_cant": "a test compares two runs for one front and one change of units; the claim is about every history and every change of units, including step back and raising calls", "anchors": ["desdeo_mcdm/interactive/ENautilus.py: ENautilus.handle_initial_request, handle_request, calculate_intermediate_points, calculate_bounds, calculate_distances, calculate_reachable_point_indices"]}
{"id": "C113", "title": "NAUTILUS and NAUTILUS 2: adding a constant to an objective changes nothing else", "statement": "If a constant is added to every value of an objective (in the problem, the ideal, the nadir and, for NAUTILUS 2, the starting point), the method shows the same session: iteration points, bounds and the final objective vector differ by exactly those constants; distances, the final decision vector, the accepted answers, the returned None and the exceptions are the same.", "quantifier": "every problem, every vector of constants, every history of answers (forward, back, short step, new or old preferences, other numbers of iterations, restarts)", "why_tests_cant": "A test compares two sessions; the claim is about all histories, all answers and all constants, and it depends on every place where objective values are combined.", "anchors": ["desdeo_mcdm/interactive/Nautilus.py: Nautilus.iterate, calculate_preferential_factors, solve_asf, calculate_iteration_point, calculate_bounds, calculate_distance, NautilusRequest.validator", "desdeo_mcdm/interactive/NautilusV2.py: NautilusV2.iterate, calculate_doi, calculate_iteration_point, calculate_bounds, calculate_distance"]}
{"id": "C114", "title": "Reference point method: adding a constant to an objective changes nothing else", "statement": "If a constant is added to every value of an objective (data, ideal, nadir, reference points), the reference point method accepts the same answers and shows the same solutions, moved by that constant.", "quantifier": "every data set, every vector of constants, every reference point", "why_tests_cant": "Where the zero of an objective lies is a modelling choice; that it does not matter is a statement about all data sets and all constants.", "anchors": ["desdeo_mcdm/interactive/ReferencePointMethod.py: ReferencePointMethod.handle_initial_request, handle_request, solve_asf, validate_reference_point"]}
{"id": "C115", "title": "Synchronous NIMBUS: adding a constant to an objective changes nothing else", "statement": "If a constant is added to every value of an objective (in the problem, the ideal, the nadir, the starting point and the levels of the answers), synchronous NIMBUS shows the same session: every objective vector shown, archived or preferred differs by exactly that constant; the decision vectors, the accepted answers, the order of the requests and the exceptions are the same.", "quantifier": "every problem (data or minimizer), every vector of constants, every history of classifications, archive, intermediate and preference answers", "why_tests_cant": "A test compares two sessions; the claim is about all histories, all answers and all constants, and it depends on every place where levels, ideal, nadir and objective values are combined.", "anchors": ["desdeo_mcdm/interactive/NIMBUS.py: NIMBUS.iterate, handle_classification_request, calculate_new_solutions, handle_save_request, handle_intermediate_solutions_request, handle_most_preferred_request, NimbusClassificationRequest.validator"]}
{"id": "C116", "title": "Pareto Navigator: adding a constant to an objective changes nothing else", "statement": "If a constant is added to every value of an objective (in the problem, the given Pareto optimal solutions, the ideal and the nadir), Pareto Navigator shows the same session: every current solution, projected solution, ideal and nadir shown differs by exactly that constant; decision vectors, accepted answers and exceptions are the same.", "quantifier": "every problem (data or minimizer), every vector of constants, every history of starts, classifications, reference points, speeds, steps back, requests for actual solutions and answers to them", "why_tests_cant": "A test compares two sessions; the claim is about all histories, all answers and all constants, and rests on how hull, weights, linear program and reference points fit together.", "anchors": ["desdeo_mcdm/interactive/ParetoNavigator.py: ParetoNavigator.__init__, iterate, handle_initial_request, handle_request, handle_solution_request, classification_to_ref_point, calculate_weights, polyhedral_set_eq, construct_lppp_A, solve_linear_parametric_problem"]}
{"id": "C117", "title": "Reference point method: the order of the objectives does not matter", "statement": "If the same objectives are listed in another order (in the problem, the ideal, the nadir and the reference points given), the Reference Point Method runs the same session: every objective vector it shows has the same entries in the new order, the additional solution belonging to an objective is the same one and stands at that objective's new position, the decision vectors are the same, the same answers are accepted and the same calls return.", "quantifier": "every permutation of the objectives, every problem (data or minimizer), every history of reference points, selected solutions and stops", "why_tests_cant": "A test compares two sessions for one permutation; the claim is about all permutations and all histories, and rests on every sum, maximum, norm, perturbation and index in the method.", "anchors": ["desdeo_mcdm/interactive/ReferencePointMethod.py: ReferencePointMethod.iterate, handle_initial_request, handle_request, calculate_prp, solve_asf, validate_reference_point, RPMInitialRequest.response, RPMRequest.response"]}
{"id": "C118", "title": "NAUTILUS and NAUTILUS 2: the order of the objectives does not matter", "statement": "If the same objectives are listed in another order (in the problem, the ideal, the nadir, the starting point and the preference information), NAUTILUS and NAUTILUS 2 run the same session: the iteration points, bounds and final objective vectors have the same entries in the new order, distances and decision vectors are the same, the same answers are accepted and the same calls return.", "quantifier": "every permutation of the objectives, every problem, every history of answers (ranks, percentages, directions, steps back, short steps, changed numbers of iterations)", "why_tests_cant": "A test compares two sessions for one permutation; the claim is about all permutations and all histories, and rests on every sum, maximum, norm, weight and bound in the method.", "anchors": ["desdeo_mcdm/interactive/Nautilus.py: Nautilus.iterate, handle_initial_request, handle_request, calculate_preferential_factors, solve_asf, calculate_iteration_point, calculate_bounds, calculate_distance, validate_preferences", "desdeo_mcdm/interactive/NautilusV2.py: NautilusV2.iterate, handle_initial_request, handle_request, calculate_preferential_factors, calculate_doi, solve_asf, calculate_bounds, calculate_distance, validate_n2_preferences"]}
