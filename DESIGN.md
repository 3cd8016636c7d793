# Formal model of desdeo-mcdm in Rocq (Coq 8.16.1)

Source: `/repo/desdeo_mcdm` (read as text, never run). Model and proofs: `rocq/theories`.

## 1. How the code is modelled

* **Shallow, branch-by-branch models.** One `M<Method>.v` file per Python module. Every definition is preceded by a
  comment citing the file and lines it models and says where it simplifies (`tools/check_cites.py` checks that the
  citation is there). No proofs live in model files.
* **Exceptions are values.** `Py.v` defines `res A = Ok a | Raise exn`. A method body that mutates `self` is
  `SE S A = S -> S * res A`; a raise keeps the mutations made before it, so every crash point is a state of the model.
* **Responses** are records of optional keys (`None` = key absent). Where the code inspects the Python type of a
  value (`isinstance`, `type(x) == bool`, `int(x)`), the value is a `pyval` (`bool` is an `int`, as in Python).
* **Numbers.** Every model is generic in the arithmetic (`NumOps`). Two instances: `XR`, exact extended reals with
  NaN/inf and IEEE conventions but no rounding/overflow/signed zero (used for arithmetic theorems), and `F64`, Coq's
  primitive binary64 floats (used for executable witnesses and for the theorems about rounding). Order-only theorems
  are proved for *every* instance satisfying `OrdLaws` (total preorder on non-NaN, NaN compares false); both instances
  are proved to satisfy it, so those theorems hold of IEEE doubles as they are.
* **Histories.** `*_reach` relations: from the constructor, any request issued so far may be answered (again) with any
  response its validator accepts, or iterated without response; a failing `iterate` leaves the partial mutation.
* **External components are oracles** (function parameters, never axioms): KMeans + nearest-row search, the scalar
  minimisers, ASFs, `linprog`, ConvexHull/Delaunay, polytope dominance tests, `problem.evaluate`. A contract on an
  oracle appears as an explicit hypothesis of the theorem that needs it, together with an example satisfying it.
  Where an "exact solver" is needed in an example it is built with `ClassicalEpsilon`, not assumed.
* **In-place writes** matter in NAUTILUS Navigator only (NaN rows written to a copy of the front): its model has an
  explicit heap of arrays. Elsewhere arrays are values.
* **numpy version.** Where it matters (object arrays made of lists of `None` and arrays) the model follows numpy
  1.23.5, the version in the repository's poetry.lock.

## 2. Files

| file | content |
|---|---|
| `Num.v`, `NumXR.v`, `NumF64.v` | number interface, exact and binary64 instances, comparison laws |
| `Py.v`, `Np.v`, `Hoare.v` | Python effects, numpy operations, a small program logic for the state monad |
| `Spec.v`, `SNavigator.v`, `SNimbus.v`, `SNimbusPlot.v`, `SRpm.v`, `SNautilus.v`, `SParetoNav.v`, `SPaint.v`, `SSolvers.v`, `SFloat.v` | the small specifications used by the statements (dominance, boxes, convex combinations, optimality, rounding...) |
| `MENautilus.v`, `MNavigator.v`, `MNimbus.v`, `MNimbusPlot.v`, `MRpm.v`, `MNautilus.v` (V1 and V2), `MParetoNav.v`, `MPaint.v`, `MSolvers.v`, `MExports.v` | models, one per module of /repo |
| `MAsf.v` | ReferencePointASF of desdeo_tools over a data set (external, trusted reading) |
| `NpFacts.v`, `XRFacts.v`, `F64Facts.v`, `F64Sums.v`, `F64Step.v`, `F64Vec.v`, `F64Walk.v` | facts about the operations; doubles through Flocq |
| `P*.v` | lemmas and proofs |
| `Props*.v` | the property theorems, each with `Print Assumptions` and a non-vacuity `Example Cnn_hypotheses_met` |

`seeded/LOG.jsonl` lists the wrong programs the theorems were tested against; `tools/mutate.py` runs such a test.

## 3. Plan per property

Statements are in `properties.jsonl`. Theorem names start with the property's number. `_partial` marks a theorem that
proves less than the property; `_refuted` marks a proof that (the rest of) the property is false of the code as
written: in every such case the strongest true variant that was found is proved beside it. A property with a
`_partial` or `_refuted` theorem has status "partial" in MANIFEST.json.

<!-- BEGIN PLAN -->
| property | code modelled | model | proof | status and restrictions |
|---|---|---|---|---|
| C01 | calculate_intermediate_points, the whole session state machine | MENautilus: en_intermediate, en_next, en_iterate, en_reach | closed form over XR by unfolding; any history by induction over en_reach; rounding bound for doubles through Flocq | proved. Exact arithmetic (extended reals), and IEEE doubles: every component shown is within 2^-51 (relative) of the exact combination, and on the last iteration is numerically equal to the front row. Stale requests and arbitrary histories included. |
| C02 | calculate_representative_points; KMeans + pairwise_distances is an oracle returning row positions | en_representatives | counting and membership over every reachable state | proved. Any arithmetic. The clustering (scikit-learn) is an oracle that returns n valid row positions. |
| C03 | calculate_bounds | en_bounds1, en_bounds | order-only, any OrdLaws arithmetic | proved. For every arithmetic with lawful comparisons, hence for IEEE doubles. |
| C04 | calculate_reachable_point_indices | en_reachable, row_in_box | unfolding, any arithmetic | proved. Every arithmetic. |
| C05 | handle_initial_request, handle_request, iterate | en_iterate, en_reach | induction over the answers | proved. Every arithmetic; answers are assumed not to raise, as in the property. |
| C06 | same, stop request | en_stop, en_handle_request | invariant over en_reach; closest row = chosen point at distance 0 | partial. Exact arithmetic. IEEE doubles: objective vector numerically a front row; decision vector of a row within 2^-536 of it, hence its own unless two rows are that close; C06_underflow_refuted shows the restriction is needed (squares underflow). |
| C07 | calculate_distances | en_distances | closed form over XR | proved. Exact arithmetic, and IEEE doubles with an explicit relative error bound (2k+10)2^-52 and exactly 100 on the last iteration. |
| C08 | step back branch of handle_request | en_handle_request | the restored request is proved equal, field by field | proved. Every arithmetic. |
| C09 | ENautilusRequest.validator | en_validate_req | "accepts iff" + witness | partial. False as stated: C09_index_validation_refuted shows that index = number of points always passes the validator and always raises IndexError. What holds: C09_accepted_index_iff and C09_valid_index_accepted_partial. |
| C10 | validator, handle_request | en_validate_req, en_handle_request | "accepts iff" + witness | partial. False as stated: the documented key is rejected and a count of 0 is accepted and then raises ZeroDivisionError after mutating the object. The used count is the given one (partial). |
| C11 | ENautilusInitialRequest.validator | en_validate_init | "accepts iff" | proved. Every arithmetic. |
| C12 | __init__ | en_ctor_check | "accepts iff" over all shapes | proved. On shapes. |
| C13 | whole session, two objectives | en_reach; SENautilus session | geometric invariant over XR; the same invariant over any arithmetic in which computed points stay between their ends; error bounds for doubles; a stranded session of doubles | partial. Proved in exact arithmetic, and in any arithmetic for sessions in which the points computed lie between the chosen point and the row (C13_progress_any_arithmetic); with doubles this holds for the last two steps and for rows below by a margin of n*2^-51 (C13_rounding_safe_doubles, C13_two_iterations_doubles). Refuted for doubles in general: with three iterations one rounding error makes every row unreachable and the session is stranded (C13_doubles_refuted). Clustering is an oracle that answers with n valid positions. |
| C14 | whole session, any number of objectives | en_iterate | refuted by double precision sessions computed by the kernel; conditional progress by an invariant over all forward sessions | partial. False for k >= 3, with IEEE doubles: a shown point worse than the chosen one; a choice after which no point is shown and every forward answer raises; a choice that raises ValueError. Proved for any number of objectives and any ordered arithmetic: the reported lower bounds tell which points have a front row below; choosing such a point gives a ValueError or a request with at least one point; every next point lies between the chosen point and a front row inside the reported bounds; if the reported upper bounds do not exceed the point the full property holds. |
| C15 | iterate, failing calls | en_iterate as state transformer | the raised branch leaves the state equal | proved. Every arithmetic. |
| C16 | NautilusNavigator counters | MNavigator: nv_iterate, nv_reach | invariant over nv_reach | proved. State and every issued request; counters change by one per forward answer; no answer raises ZeroDivisionError. |
| C17 | calculate_navigation_point | nv_nav_point, nv_forward | closed form over XR, any history | proved. Exact arithmetic (XR) and IEEE doubles (every component within 2^-51*2^e of the exact step, equal to the projection's numbers on the last step); any history; the projection is a row of the supplied front. |
| C18 | same, 100 answers | nv_forward | induction over the steps | proved. Exact arithmetic; closed form for any number of answers, plus existence of such sessions of every length. IEEE doubles: after t steps within t*2^-49*2^e of the exact closed form, and the last point has the numbers of the front row. |
| C19 | calculate_bounds | nv_bounds | order-only, any OrdLaws arithmetic, induction over steps | proved. For any ordered number type incl. IEEE doubles; at least two objectives and a front inside [ideal, nadir]. |
| C20 | calculate_reachable_point_indices | nv_reachable | unfolding + invariant | proved. After a forward answer for any bounds; for every issued request when the front lies inside [ideal, nadir]. |
| C21 | handle_request with go_to_previous | nv_back | field by field + witness | partial. Content restored exactly (C21_back_restores_partial); forward after back equal when both answers project anew; refuted in general: the last projection and reference point are not restored, so an answer equal to a later reference point reuses the later projection. |
| C22 | NautilusNavigatorRequest.validator | nv_validate | "accepts iff" + witnesses | partial. Exact acceptance for reference points of the right length; refuted: NaN, broadcast length-1 reference points, speeds 5.5 / "3" are accepted; non-boolean flags raise TypeError. |
| C23 | update, solve_nautilus_asf_problem | nv_solve | partial positive + witness | partial. Refuted: bounds of an answer are stored after the projection is computed; partial: the bounds of the previous answer are respected. |
| C24 | update | nv_forward, w_speed | exact value shown + witness | partial. Refuted: speed is only stored in the first step; partial: exact value of the speed shown. |
| C25 | handle_request with stop | nv_stop | invariant over nv_reach | proved. Any issued request, stale ones included. |
| C26 | in-place writes to the front | heap model: h_get, h_set, nan_rows | invariant over nv_reach on the heap | proved. Arrays live in an explicit heap in the model, so in-place NaN writes are visible. |
| C27 | solve_nautilus_asf_problem | nv_solve | argmin over admissible rows | proved. proper_asf: NaN rows have NaN value and front rows do not (true of PointMethodASF, proved for exact arithmetic). |
| C28 | whole session, two objectives | nv_reach; SNavAny plain_session | geometric invariant over XR; the same over any arithmetic in which computed points stay between their ends; error bounds for doubles; a stranded session of doubles | partial. Proved in exact arithmetic for any forward session without user bounds, and in any arithmetic for such sessions in which rounding does no harm (C28_any_arithmetic, which adds that no further answer can fail); with doubles a step is harmless when the rows below the navigation point are below by a margin of n*2^-51 (C28_doubles). Refuted for doubles in general: one rounding error in the first step makes every row unreachable; another reference point then raises ValueError and stopping returns no solution (C28_doubles_refuted). |
| C29 | NIMBUS state machine | MNimbus: nb_iterate, nb_reach | invariant over nb_reach | proved. Any history of calls, with or without response; a failing call leaves the object unchanged. |
| C30 | save_solutions_to_archive | nb_save | invariant over nb_reach | proved. Also every solution shown in any request is shown with its own objective vector. |
| C31 | handlers between the phases | nb_save, nb_intermediate | invariant over nb_reach | proved. Any history; the handler never fails on a validated response. |
| C32 | calculate_new_solutions | nb_new_solutions, disc_minimize | order/arithmetics over XR and doubles | proved. For every problem with finite data, over the extended reals and over IEEE doubles (the sign of a difference of finite doubles is exact, proved from Flocq). For an MOProblem the pairs are the solver's answers under the stated constraints. |
| C33 | compute_intermediate_solutions | nb_between, nb_intermediate | closed form over XR + witness | partial. Proved (exact arithmetic): n distinct points strictly between, equally far apart, each projected to the front. In double-precision arithmetic: every point within relative error 2^-49 of the i/(n+2) point, all distinct and strictly between as soon as some component of the two solutions is not almost equal. Refuted: the gap to one end is twice the others, and the projections shown may coincide. |
| C34 | calculate_new_solutions on data problems | nb_solve, cons_disc | argmin argument over XR and doubles | proved. Extended reals and IEEE doubles. C34_low_level_finds_nothing shows the hypothesis on '>=' levels is needed: otherwise ValueError. |
| C35 | NimbusClassificationRequest.validator | nb_validate_cls | "accepts iff" + witnesses | partial. Exact acceptance when there is one classification per objective and an integer number; refuted: the number of classifications is not checked, and 2.5 or NaN solutions are accepted. |
| C36 | three index validators | nb_validate_save, nb_validate_inter, nb_validate_pref | "accepts iff" + witness | partial. Save and preferred requests in full; intermediate requests: refuted for one index (accepted, IndexError), proved otherwise. |
| C37 | handle_most_preferred_request | nb_handle_pref | invariant over nb_reach | proved. Any history. |
| C38 | ReferencePointMethod rounds | MRpm: rp_round, rp_prp | any arithmetic; closed form over XR | proved. In full for any solver and any number type (weights, perturbed points, each solution a solution of its point); perturbed points q+|q-f|e_i exactly on real arithmetic. In double-precision arithmetic: each perturbed point differs from q only in its own component, within relative error (2k+10)*2^-53. |
| C39 | buffers of the method | rp_grow, sput, rp_reach | invariant over rp_reach | proved. No IndexError after any history incl. failing calls (solver assumed not to raise IndexError itself); with a solver that always answers, and with the bundled solver on finite data in exact arithmetic, accepted reference points never fail. |
| C40 | answer with satisfied | rp_handle | invariant over rp_reach | proved. In full; also: an answer to an older request returns the solution of the latest iteration. |
| C41 | validate_reference_point | rp_validate_ref | "accepts iff" + witnesses | partial. Exact characterisation of what is accepted. Refuted as stated: a point is rejected only if every component is worse than the nadir; a list instead of an array gives AttributeError, a missing solution_index KeyError. |
| C42 | solve_asf, ReferencePointASF | rp_disc, rp_asf | optimality over XR + witness | partial. Proved on exact data when no component of the reference point is positive. Refuted in general: weights q/(utopian-nadir) are negative for positive components and the worst row is returned. |
| C43 | NAUTILUS buffers and counters | MNautilus: nt_iterate, nt_reach | invariant over nt_reach | partial. Every arithmetic, every history in which the initial request is not answered again after it was handled (failing calls and stale requests included). C43_restart_refuted: answering it again raises IndexError. C43_total_is_last_asked: the total is the one asked for last. C43_session_length holds for both methods. |
| C44 | calculate_iteration_point, calculate_distance | nt_point, nt_dist | closed form over XR, induction over steps | proved. Exact arithmetic, and IEEE doubles: the j-th point within j*2^-49*2^e of the exact closed form, the last one with the numbers of the solution, distance approximated with relative error (2k+10)2^-52. |
| C45 | calculate_iteration_point, solve_asf | nt_point, nt_solve, rp_asf | induction over steps; bound from optimality | partial. Exact arithmetic, both methods: C45_monotone, C45_short_step. The hypothesis on the optimizer is the property's; C45_impairment_bound: an exact minimizer of the achievement function impairs an objective by at most rho*k/w_i; C45_impaired_refuted: it can happen, with IEEE doubles. In IEEE doubles: C45_doubles_partial, every session, every step back included, is monotone up to 2 t 2^(e-49) after t answers (values within 2^e); exactly it fails by rounding (C45_rounding_refuted). |
| C46 | validate_preferences, calculate_preferential_factors | nt1_check, nt1_factors | "accepts iff" + witnesses | partial. False as stated: rank 0, negative ranks and percentages, too many entries are accepted (C46_weights_refuted). Exactly what is accepted: C46_accepted_ranks (C46_accepted_ranks_any in every arithmetic, doubles included), C46_accepted_percentages. With doubles, percentages with decimals that sum to 100 can be rejected (58.8, 24.9, 16.3: C46_decimal_percentages_refuted). Positive factors: C46_weights_partial. |
| C47 | validate_response, handle_request | nt_validate, nt_handle | case analysis over all accepted responses + witnesses | partial. False as stated (C47_no_request_refuted): step back with short_step False and use_previous_preference True returns None; missing short_step raises KeyError; percentages as a list raise TypeError. For all other answers: C47_progress_partial. |
| C48 | calculate_doi | nt2_doi, doi_loop (fuel; divergence is a theorem about all fuels) | induction on passes | partial. True for linked pairs (C48_directions, exact arithmetic; the loop ends after at most k passes). False as stated: C48_unlinked_diverges - some objective not linked to the first one, the loop never ends - and C48_accepted_ratios_refuted with concrete accepted ratios. |
| C49 | NAUTILUS V2 buffers | nt_reach, variant V2 | invariant over nt_reach + witness | partial. False as stated: raising the number of remaining iterations after the first step overflows the buffers (C49_more_iterations_refuted). Otherwise proved for every arithmetic (C49_no_index_error_partial). |
| C50 | NAUTILUS V2 points | nt_point | closed form over XR | proved. Exact arithmetic, and IEEE doubles: the j-th point within j*2^-49*2^e of the exact closed form, the last one with the numbers of the solution, distance approximated with relative error (2k+10)2^-52. |
| C51 | construct_lppp_A/b, solve_linear_parametric_problem | MParetoNav: pn_lppp, pn_solve | LP algebra over reals (PLp.v), any history | proved. Exact arithmetic; linprog is an oracle with its specification (an optimum of the given program). Constraint equivalence for every reachable state (every history of calls), min-max optimality after any history, and in terms of what was said in the session. |
| C52 | handle_solution_request | pn_handle_solution, pn_extremes | order-only, any history | proved. Every arithmetic (reals or IEEE doubles without NaN), every history including failed calls. |
| C53 | handle_request | pn_handle, p_speed | sign invariant over histories + witness | partial. C53_forward: answers without step back. C53_back_partial: step back with a speed or after a forward move. C53_back_refuted: a second step back in a row without a speed moves forward again (the sign of the stored speed is flipped each time). |
| C54 | classification_to_ref_point | pn_class_ref | case analysis + witnesses | partial. C54_mapping for every arithmetic. In the box for sessions that start from a given solution (C54_in_box_partial); refuted otherwise (C54_in_box_refuted, concrete session), for the length of classifications (C54_length_refuted) and a single classification (C54_single_refuted: broadcast). |
| C55 | ParetoNavigatorRequest.response, calculate_speed | pn_check_speed, pn_speed_of | "accepts iff" + witnesses | partial. Accepted iff int(v) in 1..5. The step is in (0, 0.1] for integer speeds; refuted for numeric strings (TypeError) and fractions such as 5.9 (step 0.118). C55_step_doubles: the same in IEEE doubles (the step is speed/5/10 as rounded, above 0 and at most the double 0.1). |
| C56 | PAINT.approximate | MPaint: pt_run, pt_rule1, pt_rule2 | loop invariants | partial. Every arithmetic; Delaunay, generate_polytopes and the dominance tests are oracles. C56_settings_refuted: Rule 2 ignores the epsilon and method given (the tests between polytopes always use the defaults). |
| C57 | PAINT.approximate | pt_rule1, pt_rule2 | loop invariants | proved. Every arithmetic, oracles as in C56. |
| C58 | perturbate | pt_perturbate | equality of results for any number of perturbations | partial. Refuted: perturbate writes an attribute nothing reads; approximate is unchanged by any number of perturbations, so following the advice of the exception does not help. What holds (C58_perturbate_partial): the noise is added to the outcomes as given, entry by entry, also after other calls (it does not accumulate), is stored apart, and the outcomes stay. |
| C59 | payoff_table_method(_general) | MSolvers: sv_payoff | fold invariants, any arithmetic | partial. For every lawful arithmetic and every oracle (C59_table); with an exact solver the first vector is the true ideal, exact numbers and doubles (C59_true_ideal). Refuted part: the success flag is ignored, so a failed optimisation enters the table (C59_failure_refuted). |
| C60 | solve_pareto_front_representation_general | sv_loop, sv_pass | fold invariants + witnesses | partial. With exact numbers and an exact solver every row is Pareto optimal within the bounds. Refuted in general: with an approximate solver a strictly dominated row is returned (C60_dominated_refuted, doubles), because the test compares with all earlier rows at once; with one decision variable the array of variables has two columns. |
| C61 | interactive/__init__.py | MExports: namespace | computation over all names | partial. Name resolution of desdeo_mcdm/interactive/__init__.py. Proved for every method except NAUTILUS; refuted for NAUTILUS (the names of NautilusV2 replace its exception and request classes) and for the reference points of the Pareto Navigator (RPMException). |
| C62 | E-NAUTILUS whole session | en_session | convexity invariant over XR; the same with an error bound for doubles; a witness | partial. Proved in exact arithmetic, for histories with stale requests, step-backs and changed counts. With doubles a shown component leaves the box by at most T*2^(e-49), numbers up to 2^e and T requests so far (C62_points_near_box_doubles); C62_above_nadir_refuted: it does, by one rounding error, in a first request with five iterations. |
| C63 | Navigator failing calls | nv_iterate | the raised branch leaves the state equal except the speed | proved. Any history. |
| C64 | Navigator calculate_bounds | nv_bounds | order-only | proved. Any order-lawful number system, IEEE doubles included. |
| C65 | NIMBUS.__init__ | nb_start_ok, nb_init | "accepts iff" + witness | partial. In full, except that a starting point with a single entry is accepted (refuted). |
| C66 | reference point method failing calls | rp_handle | witness | partial. Refuted as stated (C66_failed_iteration_refuted). What holds is proved: the failed iteration only loses the choice among the solutions shown before; answering with a reference point gives what it would have given without the failure, and so does every later answer. |
| C67 | constraints in NAUTILUS | nt_problem, nt_solve | independence theorem for all problems + witness | partial. False: no constraint evaluator is passed to the optimizer of the achievement function; the session does not depend on the constraints at all (theorem for all problems), and a concrete session ends with a solution that violates the constraint. What holds (C67_inherited_partial): whatever is true of every solution the optimizer returns is true of the solution a session ends with, in any history with failing and repeated calls; so constraints hold when the optimizer itself observes them. |
| C68 | NAUTILUS handle_request | nt_handle | theorem for all sessions | partial. False: the request shown with one iteration left always leads to the stop request, whatever the answer (unless it changes the number of iterations); theorem for all sessions. What holds: in a session that asks once for n iterations, a step back (short or full) is possible from every request shown before all n steps are taken, with the point it leads to (C68_step_back_possible_partial), and the session ends exactly when all n steps have been taken (C68_ends_after_n_steps_partial). |
| C69 | constructors | nt_ctor_check | "accepts iff" + witnesses | partial. C69_constructor_checks is the exact condition; C69_bad_arguments_refuted shows where it differs from the documented one (minimize is never looked at, TypeError instead of NautilusException, starting points worse in some objective). |
| C70 | NAUTILUS failing calls | nt_forward | witness | partial. False: a failing step forward has already advanced the step counter; every later answer to the same request raises TypeError. What holds: a failing answer to the first request can be repeated as on a new object (C70_initial_request_partial), a failing step back leaves the object as it was (C70_step_back_partial), and a failing step forward can be repaired by a full step back with the intended preferences as long as two more steps are left (C70_step_forward_repair_partial). |
| C71 | NAUTILUS calculate_bounds | nt_bounds | invariant over nt_reach; optimality over XR | proved. C71_reported_bounds for every arithmetic and every history; C71_bounds_enclose for every arithmetic and C71_bounds_tighten for every arithmetic with lawful comparisons (IEEE doubles included), both with exact epsilon-constraint optimizers. |
| C72 | Pareto Navigator start | pn_handle_initial | case analysis + witness | partial. Proved for a preferred solution; refuted for a reference point: the decision vector (problem) or the row number (data problem) is shown as current solution. |
| C73 | Pareto Navigator solution request | pn_handle_solution, pn_disc | any history | proved. C73_shown_solution, C73_stop, C73_accept for every arithmetic; C73_data_closest over the reals. |
| C74 | Pareto Navigator iterate | pn_iterate | totality over accepted answers + witness | partial. Navigation: exact convex hull, exact total linprog, box enclosing the given solutions, a current solution with k components. Refuted before a direction has been given (TypeError). |
| C75 | Pareto Navigator failing calls | pn_handle | any state | proved. Every arithmetic and every state. |
| C76 | solve_linear_parametric_problem | pn_solve | LP optimality over reals | proved. Exact arithmetic and linprog. |
| C77 | solve_linear_parametric_problem | pn_solve | LP optimality over reals | proved. Exact arithmetic and linprog. |
| C78 | response setters | pn_validate | case analysis + witnesses | partial. Proved for answers in which no reference point is looked at; refuted for reference points (RPMException, AttributeError). |
| C79 | polyhedral_set_eq | pn_polyhedral | convex hull contract, any history | proved. Exact arithmetic, exact convex hull. |
| C80 | sort_wrt_entries, swaps | pt_sort, pt_swap | sorting invariant | proved. Every arithmetic, oracles as in C56. |
| C81 | approximate on the outcomes | pt_run | loop invariant + exact dominance | proved. Exact arithmetic and exact dominance tests. |
| C82 | approximate | pt_run | loop invariant + exact dominance | proved. Exact arithmetic and exact dominance tests; this is the D-maximal inherently nondominated set that the documentation promises. |
| C83 | exceptions of PAINT | pt_ctor, pt_approximate | case analysis | proved. Every arithmetic. |
| C84 | weighted_scalarizer | sv_weighted | sums of doubles (F64Sums.v) and of XR + witness | partial. Exact numbers and doubles. Refuted when another objective is infinite or NaN (0 * inf = NaN). |
| C85 | payoff table nadir | sv_payoff | optimality argument, XR and doubles + witness | partial. Proved for two objectives and, with unique single-objective optima, attainment for any number; exact numbers and doubles. Refuted from three objectives on (C85_three_objectives_refuted). |
| C86 | constraints in front representation | sv_front, sp_constraints | independence theorem + witness | partial. False: the constraint evaluator is never passed to the solver (C86_ignored_refuted), an exact solver returns an infeasible solution (C86_infeasible_refuted). What holds (C86_harmless_constraints_partial): if every solution Pareto optimal within the bounds satisfies the constraints, all returned solutions are Pareto optimal for the constrained problem. |
| C87 | rows of the representation | sv_loop | fold invariant + witness | partial. Proved if the optimisation for the first reference point succeeds; refuted if it fails: the result is empty (np.all over an empty selection is True, and only i < 1 is exempted). |
| C88 | reference points of the representation | sv_grid, sv_mesh | closed form over XR | proved. Exact arithmetic; math.ceil exact. |
| C89 | unknown ideal and nadir | sv_points | case analysis + witnesses | partial. Proved for points that are infinite in all entries. Refuted for None, the default (TypeError), and for points that are infinite in some entries only (exception). |
| C90 | step validation | sv_step, sv_steps | "accepts iff" + witness | partial. Proved, except that different lengths of ideal and nadir raise ValueError (C90_lengths_refuted). |
| C91 | create_plot_request, request_stop, the pairs returned by iterate | MNimbusPlot: nb_create_plot, nb_iterate_p, nb_reach_p | step-by-step refinement of MNimbus's iterate; induction over histories; witness for the failing plot | partial. Every arithmetic and problem with at least two objectives; C91_same_session: the session with plots is a session of C29-C37. Refuted part: half an intermediate solution (0.5) is accepted, shows an empty list, and the plot of the next request raises ValueError (pandas, one-dimensional empty array); C91_failure, C91_empty_list: the only way. |
| C92 | update: self._reference_point = ref_point, np.allclose(ref_point, self._reference_point) | MNavAlias: nva_step, nva_run on a heap of the caller's arrays | simulation by the by-value model when arrays are left alone; for one array edited in place, simulation by the session that repeats the first reference point; witness | partial. Proved for arrays that are not written into after they were part of an answer. Refuted otherwise: the method keeps the array object and compares the next answer with it, so a decision maker who edits one array in place is ignored after the first step (C92_one_array_not_heard, for all such sessions; C92_same_answers_refuted: witness). |
| C93 | iterate, calculate_new_solutions, compute_intermediate_solutions on DiscreteDataProblem | MNimbus: nb_iterate, nb_reach | both directions for the masked minimisation (some row unmasked, all rows NaN); totality of the intermediate points; C36 for the rest | proved. Any arithmetic with exact signs of differences (doubles and reals: C93_hypotheses_met); decision vectors of equal length and find_closest in range are hypotheses about the data problem. |
| C94 | iterate with the plots, all phases | MNimbusPlot: nb_iterate_p, nb_reach_p | invariant: which non-empty requests have been returned in each phase; one always-working answer per phase composed | proved. Any arithmetic. The answers exhibited: all objectives free, save nothing, no intermediate solutions, choose. C94_last_request_may_be_dead: the last request returned need not be the one to answer. |
| C95 | response setters and iterate of all methods | MObjects: ob_exec, ob_run, nb_calls .. pn_calls | frame lemma for the answered slot; generic invariant: every answering dictionary is acceptable, instantiated with the six reachability relations | partial. Any arithmetic. Refuted part: C95_checked_answers_refuted, a dictionary edited after it was accepted is acted on although its request refuses it. A method returning the request it was given is taken to return a new one; Navigator stop requests are not answered. |
| C96 | start, iterate of ENautilus and NautilusNavigator | MENautilus, MNavigator | invariant by the program logic of Hoare.v; the Navigator's global invariant | proved. Any arithmetic (order laws for the Navigator). |
| C97 | NautilusNavigator.__init__ | MNavigator: nv_ctor_check | case analysis on the shapes | proved. 0-d arguments raise IndexError; shapes only, entries are not examined by the code. |
| C98 | ReferencePointMethod.__init__ | MRpm: rp_ctor_check | "accepts iff" by case analysis + witnesses | partial. C98_constructor_checks is the exact condition; C98_bad_arguments_refuted shows where it differs from the documented one (the length of minimize is never looked at; TypeError instead of RPMException). |
| C99 | NIMBUS.__init__, calculate_new_solutions, compute_intermediate_solutions, iterate | MNimbus; MNimbusAsf (documented formulas of desdeo_tools) | invariant over all histories: rows strictly better than a feasible row are feasible, so the constrained minimum is globally weakly optimal; relational lemma for the documented formulas over exact reals; doubles witness | partial. C99_weakly_optimal: any arithmetic, any history, achievement functions that prefer better rows. C99_documented_functions: the documented formulas satisfy this in exact arithmetic when classifications have one entry per objective and demand less than the nadir of every objective not classified free. False without that: a too short classification is accepted and the STOM solution shown is dominated in every objective (C99_short_classification_refuted, doubles). |
| C100 | validators and response setters of the Navigator, NIMBUS, RPM, NAUTILUS | MNavigator, MNimbus, MRpm, MNautilus: *_validate | case analysis on the answer; witnesses of the other exceptions | partial. Exactly which other exceptions occur, per method: TypeError for non-bool flags (Navigator), non-numeric counts or a single level (NIMBUS), IndexError for too many classes (NIMBUS), AttributeError/KeyError/TypeError (RPM), KeyError/TypeError/IndexError (NAUTILUS); save and most-preferred answers of NIMBUS are always rejected properly. E-NAUTILUS: C09_rejected_exception; Pareto Navigator: C78. |
| C101 | NautilusNavigator.update | MNavigator: allclose, nv_forward | characterization of allclose over the extended reals; induction on sessions; doubles witness | partial. Refuted: np.allclose ignores changes below 1e-8 + 1e-5|old|; with objectives of magnitude 5e-9 no answer after the first one is ever used (all sessions, exact reals; doubles witness). Partial: exactly which answers redirect the navigation. |
| C102 | validate_n2_preferences, validate_response | nt_validate | case analysis of the validator | partial. Every arithmetic. Exactly what is accepted is proved; as stated it is false: too many components, NaN components and ratios, and entries naming one or three objectives pass (C102_one_component_per_objective_refuted). NAUTILUS 1 preferences: C46. |
| C103 | iterate of all methods | nv_iterate, nb_iterate, rp_iterate, nt_iterate, pn_iterate | computation in every state | proved. Every arithmetic, every state. E-NAUTILUS: C15_no_response_changes_nothing. |
| C104 | ReferencePointMethod.py 348-526 | rp_round, rp_handle, rp_iterate, rp_play (spec) | the round as a pure function of the reference point (rout); slot of the current iteration equal after a successful round; induction over the later answers | proved. For every arithmetic with the order laws, every problem (data or continuous with any optimizer that is a function), all pairs of histories. |
| C105 | NautilusNavigator.py 372-935 | nv_init, nv_iterate, nv_validate | simulation between the two objects: equal fields, corresponding row numbers; the projection picks the same row when there are no ties; lower and upper bounds are extrema over a set | proved. Exact extended reals (so that equal values are the same value); all permutations, all parallel histories. C105_ties_matter (doubles) shows that the proviso is needed: with a tie the first solution in the front is followed. |
| C106 | ENautilus.py 297-363, NautilusNavigator.py 302-359, Nautilus.py / NautilusV2.py handle_request, ReferencePointMethod.py 437-526, ParetoNavigator.py 474-560 | the iterate functions; ends (SFinish.v): n accepted answers lead to a stop request | an explicit answer per method, shown accepted and successful from the invariants of reachable states (counters low enough, history slots present, issued requests well-formed) | proved. Any arithmetic with the order laws (data of the Reference Point Method after a failed answer and of Pareto Navigator: exact extended reals). NAUTILUS: a session without failing answers ends with the solution of the last iteration and its objective vector (C106_nautilus_solution); after a failing one the slot may be empty. E-NAUTILUS: the point must have k components, which can only fail when an earlier step back supplied arrays of another width. Reference Point Method right after a failed answer: one answer may stop without a solution (RStop None None in C106_rpm_hypotheses_met), two give a solution. Hypotheses that a solver or the data be usable are in the statements. |
| C107 | ParetoNavigator.py: iterate and its handlers, constructor | MParetoNav.v | case analysis of each handler under the session invariants of PParetoNav5 (PropsParetoNav2.v) | proved. Every arithmetic, no hypothesis on the solvers. C107_start, C107_show, C107_navigation, C107_continue: what can be raised; C107_no_success, C107_constructor: the converse. |
| C108 | Nautilus.py 455-754, NautilusV2.py 515-813 | MNautilus.v; went_back, full_back (SNautBack.v) | all steps back write only the slots of the current step (frame lemmas); a full step back is a function of the other slots (PNautilus11.v) | proved. Every arithmetic, every optimizer that is a function of its arguments, any state of the object (C108_full_step_back) and a new object (C108_first_answer). When a full step back leads to an iteration point is C68. |
| C109 | utilities/solvers.py, the slices and np.mgrid | MSolvers sv_axis/sv_axes/sv_mesh/sv_front on doubles (F64), SSolversF.v | rounding errors through Flocq: the quotient times the step is the length of the axis up to eps/4, each grid point is within eps/4 | partial. Doubles, math.ceil exact (f64_ceil_exact). Proved if eps is at least 2^-48 of the size of the numbers, there are at most 2^52 steps per axis and nothing is extremely large or small; refuted without: eps = 1e-6 is lost next to 1e11 and the upper corner is not used. |
| C110 | NIMBUS.iterate and its handlers, the archive | MNimbus, MNimbusPlot, transcripts of sessions in SNimbus4 | simulation between a session and the one with the archive emptied; induction on the answers | partial. Proved for every reachable state and every list of answers by a simulation: C110_fresh_session_partial for the method with its plots, C110_without_plots for the session without them, C110_same_current for two sessions. Missing/false: when the session with the empty archive lists no solution at all, making the plot of the next request raises ValueError there and not in the other session (C110_empty_list_refuted; the same fault as C91). |
| C111 | NautilusNavigator.update and its helpers | MNavigator.v, SNavShift.v | simulation: every computation commutes with adding the constants (PNavShift.v), then induction over two parallel histories | partial. Exact extended reals; all constants, all parallel histories, any achievement function that ignores constants (C111_documented_function: the documented one does). The proviso same_changes (a change of the reference point counts in both or in neither) is needed: np.allclose compares with 1e-5 of the value, and C111_unnoticed_change_refuted (doubles) shows two answers that redirect the navigation in one object and are ignored after 2^20 is added to both objectives. C111_noticeable_changes gives a checkable sufficient condition. |
| C112 | ENautilus: all calls | MENautilus.v (en_iterate and all it calls), two objects side by side (SENUnits.v) | relational simulation over the state/exception monad: the second state is the first one converted, shapes are invariant (PENUnits.v, PENUnits2.v); C112_units by induction over the histories of the two objects | proved. Exact (extended real) arithmetic; the clustering is an oracle, and the hypothesis on it (corresponding rows are picked) is part of the claim: k-means in other units may of course cluster differently. Front with one value per objective in each row and one decision vector per row. |
| C113 | Nautilus, NautilusV2: all handlers | MNautilus: nt_iterate, nt_validate; MAsf: rp_asf | simulation between the two objects over XR (SNautShift, PNautShift) | proved. Exact extended reals, NAUTILUS and NAUTILUS 2, all constants, all parallel histories (restarts and unanswered requests included), any optimizer that finds the same points for the moved reference points (C113_documented_functions: so do optimizers that only see the values of the documented achievement function and ignore a constant added to what they minimize). C113_counterpart: every session has its moved counterpart. |
| C114 | ReferencePointMethod: weights, solve_asf | MRpm: rp_round, rp_validate | validator over XR; counterexample in doubles | partial. The same answers are accepted (C114_accepted, all constants). Refuted for the solutions: the weights are the reference point divided by (utopian - nadir), so they depend on where the zero of an objective is; data (1,1), (2,2) and the same data minus 4 lead to different rows (C114_constants_refuted, doubles). |
| C115 | NIMBUS: constructor, iterate, validators | MNimbus: nb_init, nb_iterate, nb_validate; MNimbusAsf: nb_asf_doc | simulation between the two objects over XR (SNimbusShift, PNimbusShift, PNimbusShift2); counterexamples in doubles | partial. Proved for all histories, all constants, problems given by data or by a minimizer, with exact numbers (C115_constants_partial, C115_start), if every classification names all objectives and implies no level equal to the utopian value or (unless the objective is free) to the nadir value; the achievement functions may be any that change by a constant, which the documented ones do (C115_documented_functions). Refuted without these conditions, in doubles: a classification with fewer entries than objectives is accepted and the missing levels are 0 whatever the range (C115_unclassified_refuted); an objective accepted at its nadir value makes GUESS divide objective values by 0, so that the solution depends on their sign (C115_accepted_nadir_refuted). |
| C116 | ParetoNavigator: constructor, iterate, handlers, validators | MParetoNav: pn_ctor, pn_iterate, pn_validate | simulation between the two objects over XR (SPnShift, PPnShift); counterexamples in doubles | partial. Proved for all histories, all constants, problems given by data or by a minimizer, with exact numbers (C116_constants_partial, C116_start), for a convex hull and a linear solver that move with their data, if the navigation starts from one of the shown solutions and every classification names all objectives; every session of one object has its counterpart (C116_counterpart). Refuted without these conditions, in doubles: a navigation started from a reference point takes the decision vector the scalar problem returns for the current objective values, so both objects show the same one (C116_reference_start_refuted); a classification with one entry is accepted, and the first objective's ideal value is compared with every objective (C116_short_classification_refuted). |
| C117 | ReferencePointMethod: iterate, setters | MRpm: rp_iterate, rp_validate; MAsf: rp_asf, rp_disc | simulation between the two objects over XR (SRpmOrder, POrder, PRpmOrder); counterexample in doubles | partial. Proved for all permutations, all histories, problems given by data or by a minimizer that finds the same minimum in either order, with exact numbers (C117_order_partial); every answer and every session of one object has its counterpart (C117_answers, C117_counterpart); the hypothesis on the minimizer holds for the documented achievement function if it only sees its values (C117_documented_function). When a call raises, the corresponding one raises too, but the exception may be another one (with several failing solver calls the first one shows). Refuted in doubles only at rounding: a sum of squares depends on the order of its terms, so a solution shown can differ in the last bit (C117_rounding_refuted). |
| C118 | Nautilus, NautilusV2: iterate, handlers, validators | MNautilus: nt_iterate, nt_validate | simulation between the two objects over XR (SNautOrder, POrder, PNautOrder); counterexamples in doubles | partial. Proved for all permutations and all histories, with exact numbers, for optimizers that find the same decision vector in either order, and preference information that gives one number (not a nan) for each objective (C118_order_partial); every such answer and every session of one object has its counterpart (C118_answers, C118_counterpart); the hypothesis on the optimizers holds for the documented functions if the optimizers only see values and do not care about the order of the constraints (C118_documented_functions). When a call raises, the corresponding one raises too, but possibly another exception (the first of several failing epsilon-constraint problems shows). Refuted without these conditions, in doubles: NAUTILUS accepts the ranks [1, nan] and refuses [nan, 1] (C118_nan_rank_refuted); pairwise ratios in NAUTILUS 2 are scaled to the first objective, the augmentation term is not, so the same ratio leads to another solution when the objectives are exchanged (C118_pairwise_ratios_refuted). |
<!-- END PLAN -->

## 4. Findings

Places where the code does not do what the property (usually its documentation) says, each proved with a concrete run
of the model or for all runs:

* E-NAUTILUS: index = number of points is accepted and raises IndexError (C09); the documented key is rejected and 0
  iterations are accepted (C10); with three objectives a shown point can be worse than the
  chosen one and a choice can lead to a request without points, with four a choice can raise ValueError (C14); one
  rounding error can make every solution unreachable (C13) or show a point worse than the nadir (C62).
* NAUTILUS Navigator: after going back the later projection is reused (C21); NaN reference points, speed 5.5 or "3"
  pass validation (C22); user bounds take effect one step late (C23); the speed is stored only in the first step (C24); one rounding error can
  make every solution unreachable (C28); a reference array edited in place is ignored after the first step (C92).
* Requests of all methods: a response edited after it was accepted is acted on without being checked (C95).
* NIMBUS: gap to one end twice as large and coinciding projections for intermediate solutions (C33); number of
  classifications unchecked, 2.5 or NaN solutions accepted (C35); one index accepted for intermediate solutions (C36);
  a starting point with one entry is accepted (C65); the plot of an empty list raises ValueError (C91); a classification
  with too few entries is accepted and a solution dominated in every objective is shown (C99).
* Navigator: np.allclose decides whether the reference point changed, so with objectives of magnitude 5e-9 every
  answer after the first is ignored (C101).  All methods but E-NAUTILUS reject some malformed answers with
  TypeError, KeyError, IndexError or AttributeError (C100).
* Reference point method: a point is rejected only if *every* component is worse than the nadir (C41); positive
  reference components give negative weights and dominated solutions (C42); a failing iteration loses the shown
  solutions (C66).
* NAUTILUS: answering the initial request again raises IndexError (C43); objectives can be impaired by an exact
  optimizer (C45); rank 0 and negative percentages accepted, percentages with
  decimals that sum to 100 rejected by rounding (C46); `None` returned instead of a request (C47);
  `calculate_doi` does not terminate on unlinked pairs (C48); growing the iteration count overflows V2's buffers (C49);
  constraints are never passed to the optimizer (C67); no step back from the last point (C68); constructor checks
  (C69); a failing step cannot be repeated (C70); NAUTILUS 2 accepts NaN components and ratios and pairs naming one
  objective (C102).
* Pareto Navigator: two steps back in a row without speed move forward (C53); reference points outside the box,
  broadcast classifications (C54); speed strings and fractions (C55); decision vector shown as current solution (C72);
  TypeError before a direction is given (C74); foreign exceptions (C78).
* PAINT: perturbate has no effect (C58); Rule 2 ignores the settings (C56).
* solvers.py: success flag ignored (C59), dominated rows kept with inexact solvers (C60), NaN objective (C84), nadir
  not a bound from three objectives on (C85), constraint evaluator never passed (C86), empty result if the first
  optimisation fails (C87), default ideal/nadir None raises (C89), lengths (C90).
* Constants added to the objectives (a different zero, nothing else): NAUTILUS, NAUTILUS 2 and E-NAUTILUS do not see
  them (C112, C113); the Navigator can miss a change of the reference point (C111); the reference point method weighs
  by the reference point itself and shows other solutions (C114); NIMBUS does so if a classification is too short or
  an objective is accepted at its nadir value (C115); Pareto Navigator if it starts from a reference point or a
  classification is too short (C116).
* The objectives in another order: nothing changes in the reference point method (C117); in NAUTILUS a nan among the
  ranks is refused or accepted by its position, and in NAUTILUS 2 the same pairwise ratio can lead to another solution
  (C118).
* interactive/__init__.py: NautilusV2's names replace NAUTILUS's exception and request classes (C61).

## 5. Trusted base

* Coq 8.16.1's kernel (including its primitive 63-bit integers and binary64 floats and, for `vm_compute` proofs, the
  bytecode machine), and the standard-library axioms and primitives printed by `Print Assumptions` (section 7):
  classical reals (`sig_forall_dec`, `sig_not_dec`), functional extensionality, `classic`,
  `constructive_indefinite_description`, and the specification of primitive floats and integers (`FloatAxioms`,
  `Uint63`). Flocq, Coquelicot etc. add no axioms of their own. There are no axioms, parameters or admitted proofs in
  `theories/`.
* The reading of the Python and numpy semantics written down in `Py.v`, `Np.v` and the comments of the `M*.v` files.
* The contracts of the oracles where a theorem assumes one (always visible in the statement), and for `MAsf.v`,
  SimpleASF and PointMethodASF the formulas of desdeo_tools.

## 6. Not modelled

Messages and printing; pandas beyond the shape checks in `MNimbusPlot.v`; running time; in-place mutation of arrays by the *caller* (except the reference point of the NAUTILUS Navigator, `MNavAlias.v`, and the dictionaries that answer requests, `MObjects.v`); values of
Python types the validators do not look at; numeric overflow of Python ints converted to float; numpy
warnings; the internals of scikit-learn, scipy, desdeo_tools and desdeo_problem (oracles). Theorems stated over `XR`
say nothing about rounding unless a theorem about doubles stands beside them. `math.ceil` on doubles is an oracle
(exact over `XR`). Sums are taken from left to right: numpy does so for fewer than 8 numbers (and with an axis); for
more numbers, or in a BLAS dot product, the last bits of a double may differ. A NAUTILUS 2 object whose buffers numpy has
flattened (after an IndexError, see `MNautilus.v`). Per-module restrictions are in the header comment of each `M*.v` file.

## 7. Print Assumptions

`PrimFloat.*` and `PrimInt63.*` are Coq's primitive types and operations, not axioms about them; `FloatAxioms.*` and
`Uint63.*` are the standard library's axioms specifying them.

<!-- BEGIN ASSUMPTIONS -->
Sets of assumptions (names as printed by `Print Assumptions`):

* **A** (193 theorems): Closed under the global context
* **B** (2 theorems): `ClassicalDedekindReals.sig_forall_dec`, `FunctionalExtensionality.functional_extensionality_dep`
* **C** (89 theorems): `ClassicalDedekindReals.sig_forall_dec`, `ClassicalDedekindReals.sig_not_dec`, `FunctionalExtensionality.functional_extensionality_dep`
* **D** (3 theorems): `ClassicalDedekindReals.sig_forall_dec`, `ClassicalDedekindReals.sig_not_dec`, `ClassicalEpsilon.constructive_indefinite_description`, `Classical_Prop.classic`, `FunctionalExtensionality.functional_extensionality_dep`
* **E** (48 theorems): `PrimFloat.abs`, `PrimFloat.add`, `PrimFloat.div`, `PrimFloat.eqb`, `PrimFloat.float`, `PrimFloat.leb`, `PrimFloat.ltb`, `PrimFloat.mul`, `PrimFloat.of_uint63`, `PrimFloat.opp`, `PrimFloat.sqrt`, `PrimFloat.sub`, `PrimInt63.int`, `PrimInt63.lor`, `PrimInt63.lsl`, `PrimInt63.sub`
* **F** (1 theorems): `PrimFloat.abs`, `PrimFloat.add`, `PrimFloat.div`, `PrimFloat.eqb`, `PrimFloat.float`, `PrimFloat.frshiftexp`, `PrimFloat.leb`, `PrimFloat.ltb`, `PrimFloat.mul`, `PrimFloat.normfr_mantissa`, `PrimFloat.of_uint63`, `PrimFloat.opp`, `PrimFloat.sqrt`, `PrimFloat.sub`, `PrimInt63.eqb`, `PrimInt63.int`, `PrimInt63.land`, `PrimInt63.lor`, `PrimInt63.lsl`, `PrimInt63.lsr`, `PrimInt63.sub`
* **G** (1 theorems): `ClassicalDedekindReals.sig_forall_dec`, `FloatAxioms.Prim2SF_valid`, `FunctionalExtensionality.functional_extensionality_dep`, `PrimFloat.abs`, `PrimFloat.add`, `PrimFloat.div`, `PrimFloat.eqb`, `PrimFloat.float`, `PrimFloat.frshiftexp`, `PrimFloat.leb`, `PrimFloat.ltb`, `PrimFloat.mul`, `PrimFloat.normfr_mantissa`, `PrimFloat.of_uint63`, `PrimFloat.opp`, `PrimFloat.sqrt`, `PrimFloat.sub`, `PrimInt63.eqb`, `PrimInt63.int`, `PrimInt63.land`, `PrimInt63.lor`, `PrimInt63.lsl`, `PrimInt63.lsr`, `PrimInt63.sub`
* **H** (2 theorems): `FloatAxioms.eqb_spec`, `FloatAxioms.leb_spec`, `FloatAxioms.ltb_spec`, `PrimFloat.abs`, `PrimFloat.add`, `PrimFloat.div`, `PrimFloat.eqb`, `PrimFloat.float`, `PrimFloat.frshiftexp`, `PrimFloat.leb`, `PrimFloat.ltb`, `PrimFloat.mul`, `PrimFloat.normfr_mantissa`, `PrimFloat.of_uint63`, `PrimFloat.opp`, `PrimFloat.sqrt`, `PrimFloat.sub`, `PrimInt63.eqb`, `PrimInt63.int`, `PrimInt63.land`, `PrimInt63.lor`, `PrimInt63.lsl`, `PrimInt63.lsr`, `PrimInt63.sub`
* **I** (1 theorems): `ClassicalDedekindReals.sig_forall_dec`, `FloatAxioms.Prim2SF_SF2Prim`, `FloatAxioms.Prim2SF_valid`, `FloatAxioms.SF2Prim_Prim2SF`, `FloatAxioms.abs_spec`, `FloatAxioms.eqb_spec`, `FunctionalExtensionality.functional_extensionality_dep`, `PrimFloat.abs`, `PrimFloat.add`, `PrimFloat.div`, `PrimFloat.eqb`, `PrimFloat.float`, `PrimFloat.frshiftexp`, `PrimFloat.ldshiftexp`, `PrimFloat.leb`, `PrimFloat.ltb`, `PrimFloat.mul`, `PrimFloat.normfr_mantissa`, `PrimFloat.of_uint63`, `PrimFloat.opp`, `PrimFloat.sqrt`, `PrimFloat.sub`, `PrimInt63.eqb`, `PrimInt63.int`, `PrimInt63.land`, `PrimInt63.lor`, `PrimInt63.lsl`, `PrimInt63.lsr`, `PrimInt63.sub`
* **J** (2 theorems): `ClassicalDedekindReals.sig_forall_dec`, `ClassicalDedekindReals.sig_not_dec`, `Classical_Prop.classic`, `FloatAxioms.Prim2SF_SF2Prim`, `FloatAxioms.Prim2SF_valid`, `FloatAxioms.SF2Prim_Prim2SF`, `FloatAxioms.abs_spec`, `FloatAxioms.add_spec`, `FloatAxioms.eqb_spec`, `FloatAxioms.mul_spec`, `FloatAxioms.sub_spec`, `FunctionalExtensionality.functional_extensionality_dep`, `PrimFloat.abs`, `PrimFloat.add`, `PrimFloat.div`, `PrimFloat.eqb`, `PrimFloat.float`, `PrimFloat.frshiftexp`, `PrimFloat.ldshiftexp`, `PrimFloat.leb`, `PrimFloat.ltb`, `PrimFloat.mul`, `PrimFloat.normfr_mantissa`, `PrimFloat.of_uint63`, `PrimFloat.opp`, `PrimFloat.sqrt`, `PrimFloat.sub`, `PrimInt63.eqb`, `PrimInt63.int`, `PrimInt63.land`, `PrimInt63.lor`, `PrimInt63.lsl`, `PrimInt63.lsr`, `PrimInt63.sub`
* **K** (3 theorems): `ClassicalDedekindReals.sig_forall_dec`, `ClassicalDedekindReals.sig_not_dec`, `Classical_Prop.classic`, `FloatAxioms.Prim2SF_SF2Prim`, `FloatAxioms.Prim2SF_valid`, `FloatAxioms.SF2Prim_Prim2SF`, `FloatAxioms.abs_spec`, `FloatAxioms.add_spec`, `FloatAxioms.eqb_spec`, `FloatAxioms.leb_spec`, `FloatAxioms.ltb_spec`, `FloatAxioms.mul_spec`, `FloatAxioms.sub_spec`, `FunctionalExtensionality.functional_extensionality_dep`, `PrimFloat.abs`, `PrimFloat.add`, `PrimFloat.div`, `PrimFloat.eqb`, `PrimFloat.float`, `PrimFloat.frshiftexp`, `PrimFloat.ldshiftexp`, `PrimFloat.leb`, `PrimFloat.ltb`, `PrimFloat.mul`, `PrimFloat.normfr_mantissa`, `PrimFloat.of_uint63`, `PrimFloat.opp`, `PrimFloat.sqrt`, `PrimFloat.sub`, `PrimInt63.eqb`, `PrimInt63.int`, `PrimInt63.land`, `PrimInt63.lor`, `PrimInt63.lsl`, `PrimInt63.lsr`, `PrimInt63.sub`
* **L** (1 theorems): `ClassicalDedekindReals.sig_forall_dec`, `ClassicalDedekindReals.sig_not_dec`, `Classical_Prop.classic`, `FloatAxioms.Prim2SF_SF2Prim`, `FloatAxioms.Prim2SF_valid`, `FloatAxioms.SF2Prim_Prim2SF`, `FloatAxioms.abs_spec`, `FloatAxioms.add_spec`, `FloatAxioms.eqb_spec`, `FloatAxioms.leb_spec`, `FloatAxioms.ltb_spec`, `FloatAxioms.mul_spec`, `FloatAxioms.sqrt_spec`, `FloatAxioms.sub_spec`, `FunctionalExtensionality.functional_extensionality_dep`, `PrimFloat.abs`, `PrimFloat.add`, `PrimFloat.div`, `PrimFloat.eqb`, `PrimFloat.float`, `PrimFloat.frshiftexp`, `PrimFloat.ldshiftexp`, `PrimFloat.leb`, `PrimFloat.ltb`, `PrimFloat.mul`, `PrimFloat.normfr_mantissa`, `PrimFloat.of_uint63`, `PrimFloat.opp`, `PrimFloat.sqrt`, `PrimFloat.sub`, `PrimInt63.eqb`, `PrimInt63.int`, `PrimInt63.land`, `PrimInt63.lor`, `PrimInt63.lsl`, `PrimInt63.lsr`, `PrimInt63.sub`
* **M** (3 theorems): `ClassicalDedekindReals.sig_forall_dec`, `ClassicalDedekindReals.sig_not_dec`, `Classical_Prop.classic`, `FloatAxioms.Prim2SF_SF2Prim`, `FloatAxioms.Prim2SF_valid`, `FloatAxioms.SF2Prim_Prim2SF`, `FloatAxioms.abs_spec`, `FloatAxioms.add_spec`, `FloatAxioms.div_spec`, `FloatAxioms.eqb_spec`, `FloatAxioms.mul_spec`, `FloatAxioms.of_uint63_spec`, `FunctionalExtensionality.functional_extensionality_dep`, `PrimFloat.abs`, `PrimFloat.add`, `PrimFloat.div`, `PrimFloat.eqb`, `PrimFloat.float`, `PrimFloat.frshiftexp`, `PrimFloat.ldshiftexp`, `PrimFloat.leb`, `PrimFloat.ltb`, `PrimFloat.mul`, `PrimFloat.normfr_mantissa`, `PrimFloat.of_uint63`, `PrimFloat.opp`, `PrimFloat.sqrt`, `PrimFloat.sub`, `PrimInt63.add`, `PrimInt63.eqb`, `PrimInt63.int`, `PrimInt63.land`, `PrimInt63.leb`, `PrimInt63.lor`, `PrimInt63.lsl`, `PrimInt63.lsr`, `PrimInt63.ltb`, `PrimInt63.sub`, `Uint63.add_spec`, `Uint63.eqb_correct`, `Uint63.eqb_refl`, `Uint63.leb_spec`, `Uint63.lor_spec`, `Uint63.lsl_spec`, `Uint63.lsr_spec`, `Uint63.ltb_spec`, `Uint63.of_to_Z`, `Uint63.sub_spec`
* **N** (3 theorems): `ClassicalDedekindReals.sig_forall_dec`, `ClassicalDedekindReals.sig_not_dec`, `Classical_Prop.classic`, `FloatAxioms.Prim2SF_SF2Prim`, `FloatAxioms.Prim2SF_valid`, `FloatAxioms.SF2Prim_Prim2SF`, `FloatAxioms.abs_spec`, `FloatAxioms.add_spec`, `FloatAxioms.div_spec`, `FloatAxioms.eqb_spec`, `FloatAxioms.leb_spec`, `FloatAxioms.mul_spec`, `FloatAxioms.of_uint63_spec`, `FunctionalExtensionality.functional_extensionality_dep`, `PrimFloat.abs`, `PrimFloat.add`, `PrimFloat.div`, `PrimFloat.eqb`, `PrimFloat.float`, `PrimFloat.frshiftexp`, `PrimFloat.ldshiftexp`, `PrimFloat.leb`, `PrimFloat.ltb`, `PrimFloat.mul`, `PrimFloat.normfr_mantissa`, `PrimFloat.of_uint63`, `PrimFloat.opp`, `PrimFloat.sqrt`, `PrimFloat.sub`, `PrimInt63.add`, `PrimInt63.eqb`, `PrimInt63.int`, `PrimInt63.land`, `PrimInt63.leb`, `PrimInt63.lor`, `PrimInt63.lsl`, `PrimInt63.lsr`, `PrimInt63.ltb`, `PrimInt63.sub`, `Uint63.add_spec`, `Uint63.eqb_correct`, `Uint63.eqb_refl`, `Uint63.leb_spec`, `Uint63.lor_spec`, `Uint63.lsl_spec`, `Uint63.lsr_spec`, `Uint63.ltb_spec`, `Uint63.of_to_Z`, `Uint63.sub_spec`
* **O** (2 theorems): `ClassicalDedekindReals.sig_forall_dec`, `ClassicalDedekindReals.sig_not_dec`, `Classical_Prop.classic`, `FloatAxioms.Prim2SF_SF2Prim`, `FloatAxioms.Prim2SF_valid`, `FloatAxioms.SF2Prim_Prim2SF`, `FloatAxioms.abs_spec`, `FloatAxioms.add_spec`, `FloatAxioms.div_spec`, `FloatAxioms.eqb_spec`, `FloatAxioms.leb_spec`, `FloatAxioms.ltb_spec`, `FloatAxioms.mul_spec`, `FloatAxioms.of_uint63_spec`, `FunctionalExtensionality.functional_extensionality_dep`, `PrimFloat.abs`, `PrimFloat.add`, `PrimFloat.div`, `PrimFloat.eqb`, `PrimFloat.float`, `PrimFloat.frshiftexp`, `PrimFloat.ldshiftexp`, `PrimFloat.leb`, `PrimFloat.ltb`, `PrimFloat.mul`, `PrimFloat.normfr_mantissa`, `PrimFloat.of_uint63`, `PrimFloat.opp`, `PrimFloat.sqrt`, `PrimFloat.sub`, `PrimInt63.add`, `PrimInt63.eqb`, `PrimInt63.int`, `PrimInt63.land`, `PrimInt63.leb`, `PrimInt63.lor`, `PrimInt63.lsl`, `PrimInt63.lsr`, `PrimInt63.ltb`, `PrimInt63.sub`, `Uint63.add_spec`, `Uint63.eqb_correct`, `Uint63.eqb_refl`, `Uint63.leb_spec`, `Uint63.lor_spec`, `Uint63.lsl_spec`, `Uint63.lsr_spec`, `Uint63.ltb_spec`, `Uint63.of_to_Z`, `Uint63.sub_spec`
* **P** (1 theorems): `ClassicalDedekindReals.sig_forall_dec`, `ClassicalDedekindReals.sig_not_dec`, `Classical_Prop.classic`, `FloatAxioms.Prim2SF_SF2Prim`, `FloatAxioms.Prim2SF_valid`, `FloatAxioms.SF2Prim_Prim2SF`, `FloatAxioms.abs_spec`, `FloatAxioms.add_spec`, `FloatAxioms.div_spec`, `FloatAxioms.eqb_spec`, `FloatAxioms.leb_spec`, `FloatAxioms.mul_spec`, `FloatAxioms.of_uint63_spec`, `FloatAxioms.sub_spec`, `FunctionalExtensionality.functional_extensionality_dep`, `PrimFloat.abs`, `PrimFloat.add`, `PrimFloat.div`, `PrimFloat.eqb`, `PrimFloat.float`, `PrimFloat.frshiftexp`, `PrimFloat.ldshiftexp`, `PrimFloat.leb`, `PrimFloat.ltb`, `PrimFloat.mul`, `PrimFloat.normfr_mantissa`, `PrimFloat.of_uint63`, `PrimFloat.opp`, `PrimFloat.sqrt`, `PrimFloat.sub`, `PrimInt63.add`, `PrimInt63.eqb`, `PrimInt63.int`, `PrimInt63.land`, `PrimInt63.leb`, `PrimInt63.lor`, `PrimInt63.lsl`, `PrimInt63.lsr`, `PrimInt63.ltb`, `PrimInt63.sub`, `Uint63.add_spec`, `Uint63.eqb_correct`, `Uint63.eqb_refl`, `Uint63.leb_spec`, `Uint63.lor_spec`, `Uint63.lsl_spec`, `Uint63.lsr_spec`, `Uint63.ltb_spec`, `Uint63.of_to_Z`, `Uint63.sub_spec`
* **Q** (4 theorems): `ClassicalDedekindReals.sig_forall_dec`, `ClassicalDedekindReals.sig_not_dec`, `Classical_Prop.classic`, `FloatAxioms.Prim2SF_SF2Prim`, `FloatAxioms.Prim2SF_valid`, `FloatAxioms.SF2Prim_Prim2SF`, `FloatAxioms.abs_spec`, `FloatAxioms.add_spec`, `FloatAxioms.div_spec`, `FloatAxioms.eqb_spec`, `FloatAxioms.mul_spec`, `FloatAxioms.of_uint63_spec`, `FloatAxioms.sqrt_spec`, `FloatAxioms.sub_spec`, `FunctionalExtensionality.functional_extensionality_dep`, `PrimFloat.abs`, `PrimFloat.add`, `PrimFloat.div`, `PrimFloat.eqb`, `PrimFloat.float`, `PrimFloat.frshiftexp`, `PrimFloat.ldshiftexp`, `PrimFloat.leb`, `PrimFloat.ltb`, `PrimFloat.mul`, `PrimFloat.normfr_mantissa`, `PrimFloat.of_uint63`, `PrimFloat.opp`, `PrimFloat.sqrt`, `PrimFloat.sub`, `PrimInt63.add`, `PrimInt63.eqb`, `PrimInt63.int`, `PrimInt63.land`, `PrimInt63.leb`, `PrimInt63.lor`, `PrimInt63.lsl`, `PrimInt63.lsr`, `PrimInt63.ltb`, `PrimInt63.sub`, `Uint63.add_spec`, `Uint63.eqb_correct`, `Uint63.eqb_refl`, `Uint63.leb_spec`, `Uint63.lor_spec`, `Uint63.lsl_spec`, `Uint63.lsr_spec`, `Uint63.ltb_spec`, `Uint63.of_to_Z`, `Uint63.sub_spec`
* **R** (1 theorems): `ClassicalDedekindReals.sig_forall_dec`, `ClassicalDedekindReals.sig_not_dec`, `Classical_Prop.classic`, `FloatAxioms.Prim2SF_SF2Prim`, `FloatAxioms.Prim2SF_valid`, `FloatAxioms.SF2Prim_Prim2SF`, `FloatAxioms.abs_spec`, `FloatAxioms.add_spec`, `FloatAxioms.div_spec`, `FloatAxioms.eqb_spec`, `FloatAxioms.leb_spec`, `FloatAxioms.ltb_spec`, `FloatAxioms.mul_spec`, `FloatAxioms.of_uint63_spec`, `FloatAxioms.sub_spec`, `FunctionalExtensionality.functional_extensionality_dep`, `PrimFloat.abs`, `PrimFloat.add`, `PrimFloat.div`, `PrimFloat.eqb`, `PrimFloat.float`, `PrimFloat.frshiftexp`, `PrimFloat.ldshiftexp`, `PrimFloat.leb`, `PrimFloat.ltb`, `PrimFloat.mul`, `PrimFloat.normfr_mantissa`, `PrimFloat.of_uint63`, `PrimFloat.opp`, `PrimFloat.sqrt`, `PrimFloat.sub`, `PrimInt63.add`, `PrimInt63.eqb`, `PrimInt63.int`, `PrimInt63.land`, `PrimInt63.leb`, `PrimInt63.lor`, `PrimInt63.lsl`, `PrimInt63.lsr`, `PrimInt63.ltb`, `PrimInt63.sub`, `Uint63.add_spec`, `Uint63.eqb_correct`, `Uint63.eqb_refl`, `Uint63.leb_spec`, `Uint63.lor_spec`, `Uint63.lsl_spec`, `Uint63.lsr_spec`, `Uint63.ltb_spec`, `Uint63.of_to_Z`, `Uint63.sub_spec`
* **S** (1 theorems): `ClassicalDedekindReals.sig_forall_dec`, `ClassicalDedekindReals.sig_not_dec`, `Classical_Prop.classic`, `FloatAxioms.Prim2SF_SF2Prim`, `FloatAxioms.Prim2SF_valid`, `FloatAxioms.SF2Prim_Prim2SF`, `FloatAxioms.abs_spec`, `FloatAxioms.add_spec`, `FloatAxioms.eqb_spec`, `FloatAxioms.leb_spec`, `FloatAxioms.ltb_spec`, `FloatAxioms.mul_spec`, `FloatAxioms.of_uint63_spec`, `FloatAxioms.sqrt_spec`, `FloatAxioms.sub_spec`, `FunctionalExtensionality.functional_extensionality_dep`, `PrimFloat.abs`, `PrimFloat.add`, `PrimFloat.div`, `PrimFloat.eqb`, `PrimFloat.float`, `PrimFloat.frshiftexp`, `PrimFloat.ldshiftexp`, `PrimFloat.leb`, `PrimFloat.ltb`, `PrimFloat.mul`, `PrimFloat.normfr_mantissa`, `PrimFloat.of_uint63`, `PrimFloat.opp`, `PrimFloat.sqrt`, `PrimFloat.sub`, `PrimInt63.add`, `PrimInt63.eqb`, `PrimInt63.int`, `PrimInt63.land`, `PrimInt63.leb`, `PrimInt63.lor`, `PrimInt63.lsl`, `PrimInt63.lsr`, `PrimInt63.ltb`, `PrimInt63.sub`, `Uint63.add_spec`, `Uint63.eqb_correct`, `Uint63.eqb_refl`, `Uint63.leb_spec`, `Uint63.lor_spec`, `Uint63.lsl_spec`, `Uint63.lsr_spec`, `Uint63.ltb_spec`, `Uint63.of_to_Z`, `Uint63.sub_spec`
* **T** (2 theorems): `ClassicalDedekindReals.sig_forall_dec`, `ClassicalDedekindReals.sig_not_dec`, `Classical_Prop.classic`, `FloatAxioms.Prim2SF_SF2Prim`, `FloatAxioms.Prim2SF_valid`, `FloatAxioms.SF2Prim_Prim2SF`, `FloatAxioms.abs_spec`, `FloatAxioms.add_spec`, `FloatAxioms.div_spec`, `FloatAxioms.eqb_spec`, `FloatAxioms.leb_spec`, `FloatAxioms.ltb_spec`, `FloatAxioms.mul_spec`, `FloatAxioms.of_uint63_spec`, `FloatAxioms.sqrt_spec`, `FloatAxioms.sub_spec`, `FunctionalExtensionality.functional_extensionality_dep`, `PrimFloat.abs`, `PrimFloat.add`, `PrimFloat.div`, `PrimFloat.eqb`, `PrimFloat.float`, `PrimFloat.frshiftexp`, `PrimFloat.ldshiftexp`, `PrimFloat.leb`, `PrimFloat.ltb`, `PrimFloat.mul`, `PrimFloat.normfr_mantissa`, `PrimFloat.of_uint63`, `PrimFloat.opp`, `PrimFloat.sqrt`, `PrimFloat.sub`, `PrimInt63.add`, `PrimInt63.eqb`, `PrimInt63.int`, `PrimInt63.land`, `PrimInt63.leb`, `PrimInt63.lor`, `PrimInt63.lsl`, `PrimInt63.lsr`, `PrimInt63.ltb`, `PrimInt63.sub`, `Uint63.add_spec`, `Uint63.eqb_correct`, `Uint63.eqb_refl`, `Uint63.leb_spec`, `Uint63.lor_spec`, `Uint63.lsl_spec`, `Uint63.lsr_spec`, `Uint63.ltb_spec`, `Uint63.of_to_Z`, `Uint63.sub_spec`

| property | theorem (assumption set) |
|---|---|
| C01 (proved) | `C01_first_points_doubles` (M), `C01_next_points_doubles` (M), `C01_first_request_points` (C), `C01_next_request_points` (C), `C01_last_points_on_front` (C) |
| C02 (proved) | `C02_number_of_points` (A), `C02_first_number_of_points` (A), `C02_number_kept` (A), `C02_representatives` (A) |
| C03 (proved) | `C03_bounds` (A) |
| C04 (proved) | `C04_reachable_indices` (A) |
| C05 (proved) | `C05_session_length` (A) |
| C06 (partial) | `C06_final_solution_doubles` (L), `C06_underflow_refuted` (E), `C06_final_solution` (C) |
| C07 (proved) | `C07_first_distance_doubles` (Q), `C07_next_distance_doubles` (Q), `C07_first_distance` (C), `C07_next_distance` (C) |
| C08 (proved) | `C08_step_back_faithful` (A), `C08_issued_request` (A), `C08_step_back_accepted_iff` (A) |
| C09 (partial) | `C09_accepted_index_iff` (A), `C09_index_validation_refuted` (A), `C09_rejected_exception` (A), `C09_valid_index_accepted_partial` (A) |
| C10 (partial) | `C10_new_count_used_partial` (A), `C10_documented_key_refuted` (A), `C10_zero_iterations_refuted` (E) |
| C11 (proved) | `C11_initial_validation` (A) |
| C12 (proved) | `C12_constructor` (A) |
| C13 (partial) | `C13_progress_any_arithmetic` (A), `C13_first_answer_any_arithmetic` (A), `C13_rounding_safe_doubles` (N), `C13_two_iterations_doubles` (O), `C13_doubles_refuted` (E), `C13_two_objective_progress` (C) |
| C14 (partial) | `C14_three_objective_progress_refuted` (E), `C14_progress_partial` (C), `C14_progress_any_arithmetic_partial` (A), `C14_lower_bounds_tell` (A), `C14_choice_outcome_partial` (A), `C14_within_reported_bounds` (C), `C14_stranded_refuted` (E), `C14_answer_raises_refuted` (E) |
| C15 (proved) | `C15_stop_is_identity` (A), `C15_bad_index_changes_nothing` (A), `C15_no_response_changes_nothing` (A), `C15_data_never_changes` (A) |
| C16 (proved) | `C16_counters` (A), `C16_forward_counts_down` (A), `C16_no_division_by_zero` (A), `C16_first_request` (A) |
| C17 (proved) | `C17_navigation_point_doubles` (O), `C17_navigation_point` (C) |
| C18 (proved) | `C18_constant_preference_doubles` (T), `C18_constant_preference` (C), `C18_constant_preference_never_fails` (C) |
| C19 (proved) | `C19_bounds_shrink` (A), `C19_bounds_shrink_ieee_doubles` (H) |
| C20 (proved) | `C20_forward_reachable_indices` (A), `C20_every_request` (A) |
| C21 (partial) | `C21_back_restores_partial` (A), `C21_forward_after_back_partial` (A), `C21_same_as_before_refuted` (E) |
| C22 (partial) | `C22_accepts_exactly_partial` (A), `C22_wrong_length_rejected_partial` (A), `C22_rejection_partial` (A), `C22_validation_refuted` (E) |
| C23 (partial) | `C23_previous_bounds_partial` (A), `C23_user_bounds_refuted` (E) |
| C24 (partial) | `C24_speed_of_first_answer_partial` (A), `C24_speed_refuted` (E) |
| C25 (proved) | `C25_stop` (A) |
| C26 (proved) | `C26_front_unchanged` (A) |
| C27 (proved) | `C27_projection` (A), `C27_projection_kept` (A), `C27_no_admissible_row_fails` (A) |
| C28 (partial) | `C28_any_arithmetic` (A), `C28_doubles` (N), `C28_doubles_refuted` (E), `C28_two_objectives` (C) |
| C29 (proved) | `C29_wrong_request` (A), `C29_protocol` (A), `C29_end_is_absorbing` (A) |
| C30 (proved) | `C30_archive_grows` (A), `C30_archive_aligned` (A), `C30_shown_aligned` (A) |
| C31 (proved) | `C31_nothing_lost` (A) |
| C32 (proved) | `C32_new_solutions` (A) |
| C33 (partial) | `C33_points_partial` (C), `C33_uneven_ends_refuted` (C), `C33_shown_not_distinct_refuted` (E), `C33_points_doubles_partial` (T) |
| C34 (proved) | `C34_first_solution_honours` (A), `C34_feasible_if_levels_allow_current` (A), `C34_low_level_finds_nothing` (E) |
| C35 (partial) | `C35_exact_partial` (A), `C35_missing_entry` (A), `C35_length_refuted` (A), `C35_number_refuted` (E) |
| C36 (partial) | `C36_save` (A), `C36_most_preferred` (A), `C36_intermediate_partial` (A), `C36_one_index_refuted` (A) |
| C37 (proved) | `C37_chosen_solution` (A) |
| C38 (proved) | `C38_solutions` (A), `C38_perturbed_points` (C), `C38_perturbed_points_doubles` (S) |
| C39 (proved) | `C39_no_index_error` (A), `C39_continuing_never_fails` (A), `C39_discrete_never_fails` (C) |
| C40 (proved) | `C40_accepted_indices` (A), `C40_selected` (A) |
| C41 (partial) | `C41_accepts_exactly` (A), `C41_admissible_accepted_partial` (A), `C41_worse_accepted_refuted` (E) |
| C42 (partial) | `C42_not_dominated_partial` (C), `C42_dominated_refuted` (E) |
| C43 (partial) | `C43_no_index_error` (A), `C43_counters` (A), `C43_total_is_last_asked` (A), `C43_session_length` (A), `C43_restart_refuted` (E) |
| C44 (proved) | `C44_convergence_doubles` (Q), `C44_convergence` (C), `C44_last_point` (C) |
| C45 (partial) | `C45_monotone` (C), `C45_short_step` (C), `C45_impairment_bound` (C), `C45_impaired_refuted` (E), `C45_doubles_partial` (M), `C45_rounding_refuted` (G) |
| C46 (partial) | `C46_accepted_ranks` (C), `C46_accepted_ranks_any` (A), `C46_decimal_percentages_refuted` (E), `C46_accepted_percentages` (C), `C46_weights_partial` (C), `C46_weights_refuted` (E) |
| C47 (partial) | `C47_progress_partial` (A), `C47_no_request_refuted` (E) |
| C48 (partial) | `C48_directions` (C), `C48_unlinked_diverges` (C), `C48_accepted_ratios_refuted` (E) |
| C49 (partial) | `C49_no_index_error_partial` (A), `C49_more_iterations_refuted` (E) |
| C50 (proved) | `C50_convergence_doubles` (Q), `C50_convergence` (C), `C50_last_point_is_final` (C) |
| C51 (proved) | `C51_constraints` (C), `C51_min_max` (C), `C51_session` (C) |
| C52 (proved) | `C52_widens` (A), `C52_encloses` (A), `C52_adds_shown` (A) |
| C53 (partial) | `C53_forward` (C), `C53_back_partial` (C), `C53_back_refuted` (C) |
| C54 (partial) | `C54_mapping` (A), `C54_in_box_partial` (C), `C54_length_refuted` (A), `C54_single_refuted` (C), `C54_in_box_refuted` (D) |
| C55 (partial) | `C55_accepted` (A), `C55_step` (C), `C55_string_refuted` (A), `C55_fraction_refuted` (C), `C55_step_doubles` (H) |
| C56 (partial) | `C56_selected` (A), `C56_settings_refuted` (A) |
| C57 (proved) | `C57_reason` (A) |
| C58 (partial) | `C58_perturbate_partial` (A), `C58_perturbed_refuted` (A), `C58_advice_refuted` (A) |
| C59 (partial) | `C59_table` (A), `C59_failure_refuted` (A), `C59_what_is_asked` (A), `C59_true_ideal` (K) |
| C60 (partial) | `C60_aligned` (A), `C60_single_variable_refuted` (A), `C60_filter` (A), `C60_pareto_optimal` (C), `C60_dominated_refuted` (F), `C60_what_is_asked` (A) |
| C61 (partial) | `C61_last_import_wins` (A), `C61_names_exist` (A), `C61_catches_own` (A), `C61_nautilus_refuted` (A), `C61_pareto_navigator_refuted` (A) |
| C62 (partial) | `C62_points_near_box_doubles` (N), `C62_above_nadir_refuted` (E), `C62_points_in_box` (C) |
| C63 (proved) | `C63_failed_answer` (A) |
| C64 (proved) | `C64_bounds` (A) |
| C65 (partial) | `C65_construction` (A), `C65_reported` (A), `C65_one_entry_refuted` (E) |
| C66 (partial) | `C66_failed_iteration_refuted` (E), `C66_continues_unharmed_partial` (A) |
| C67 (partial) | `C67_inherited_partial` (A), `C67_constraints_not_used_refuted` (E) |
| C68 (partial) | `C68_last_request_ends_refuted` (A), `C68_step_back_possible_partial` (A), `C68_ends_after_n_steps_partial` (A) |
| C69 (partial) | `C69_constructor_checks` (A), `C69_exception` (A), `C69_bad_arguments_refuted` (E) |
| C70 (partial) | `C70_failed_call_refuted` (E), `C70_initial_request_partial` (A), `C70_step_back_partial` (A), `C70_step_forward_repair_partial` (A) |
| C71 (proved) | `C71_reported_bounds` (A), `C71_bounds_enclose` (A), `C71_bounds_tighten` (A) |
| C72 (partial) | `C72_preferred_start` (A), `C72_reference_start_refuted` (A), `C72_data_start_refuted` (A) |
| C73 (proved) | `C73_shown_solution` (A), `C73_stop` (A), `C73_accept` (A), `C73_data_closest` (C) |
| C74 (partial) | `C74_navigation_answered_partial` (C), `C74_no_direction_refuted` (A), `C74_continue` (A), `C74_show_answered` (C) |
| C75 (proved) | `C75_failed_answer` (A) |
| C76 (proved) | `C76_weakly_optimal` (C) |
| C77 (proved) | `C77_attainable` (C) |
| C78 (partial) | `C78_rejected_partial` (A), `C78_accepted` (A), `C78_reference_refuted` (A) |
| C79 (proved) | `C79_approximation_grows` (C), `C79_current_inside` (C) |
| C80 (proved) | `C80_order` (A) |
| C81 (proved) | `C81_outcomes_kept` (C) |
| C82 (proved) | `C82_inherently_nondominated` (C), `C82_maximal` (C) |
| C83 (proved) | `C83_constructor` (A), `C83_approximate` (A) |
| C84 (partial) | `C84_selects_objective` (C), `C84_selects_objective_f64` (J), `C84_infinite_refuted` (J) |
| C85 (partial) | `C85_two_objectives` (K), `C85_attained` (K), `C85_three_objectives_refuted` (D) |
| C86 (partial) | `C86_harmless_constraints_partial` (C), `C86_ignored_refuted` (A), `C86_infeasible_refuted` (D) |
| C87 (partial) | `C87_kept_partial` (C), `C87_first_failure_refuted` (C) |
| C88 (proved) | `C88_reference_points` (C), `C88_no_other_points` (C), `C88_covers` (B), `C88_corners` (B) |
| C89 (partial) | `C89_computed` (A), `C89_none_refuted` (A), `C89_partly_infinite_refuted` (C) |
| C90 (partial) | `C90_accepted` (C), `C90_rejected` (A), `C90_lengths_refuted` (A), `C90_zero_step` (C), `C90_negative_step` (C) |
| C91 (partial) | `C91_plots` (A), `C91_same_session` (A), `C91_failure` (A), `C91_nothing_to_choose_from` (A), `C91_never_fails_partial` (A), `C91_empty_list` (A), `C91_plot_fails_refuted` (E) |
| C92 (partial) | `C92_arrays_left_alone` (A), `C92_one_array_not_heard` (P), `C92_same_answers_refuted` (E) |
| C93 (proved) | `C93_carried_out_iff` (A) |
| C94 (proved) | `C94_can_finish` (A), `C94_can_finish_any_problem` (A), `C94_archived_can_be_chosen` (A), `C94_last_request_may_be_dead` (E) |
| C95 (partial) | `C95_rejected_answer` (A), `C95_last_accepted_answer_is_used` (A), `C95_unanswered` (A), `C95_histories_nimbus` (A), `C95_histories_rpm` (A), `C95_histories_nautilus` (A), `C95_histories_enautilus` (A), `C95_histories_navigator` (A), `C95_histories_pareto` (A), `C95_checked_answers_refuted` (E) |
| C96 (proved) | `C96_enautilus_contents` (A), `C96_navigator_contents` (A) |
| C97 (proved) | `C97_navigator_constructor` (A), `C97_accepted_is_setup` (A) |
| C98 (partial) | `C98_constructor_checks` (A), `C98_exception` (A), `C98_bad_arguments_refuted` (E) |
| C99 (partial) | `C99_weakly_optimal` (A), `C99_documented_functions` (C), `C99_short_classification_refuted` (E) |
| C100 (partial) | `C100_navigator_partial` (A), `C100_nimbus_save_preferred` (A), `C100_nimbus_intermediate_partial` (A), `C100_nimbus_classification_partial` (A), `C100_rpm_partial` (A), `C100_nautilus_partial` (A), `C100_own_exception_refuted` (E) |
| C101 (partial) | `C101_redirects_partial` (C), `C101_small_objectives_refuted` (C), `C101_redirects_refuted` (E) |
| C102 (partial) | `C102_initial_request` (A), `C102_next_request` (A), `C102_one_component_per_objective_refuted` (E) |
| C103 (proved) | `C103_nothing_happens` (A), `C103_pareto_navigator` (A) |
| C104 (proved) | `C104_same_reference_point` (A) |
| C105 (proved) | `C105_row_order` (C) |
| C106 (proved) | `C106_nautilus` (A), `C106_nautilus2` (A), `C106_nautilus_solution` (A) |
| C107 (proved) | `C107_start` (A), `C107_show` (A), `C107_navigation` (A), `C107_continue` (A), `C107_no_success` (A), `C107_constructor` (A) |
| C108 (proved) | `C108_full_step_back` (A), `C108_first_answer` (A) |
| C109 (partial) | `C109_grid_partial` (R), `C109_upper_corner_refuted` (I) |
| C110 (partial) | `C110_fresh_session_partial` (A), `C110_without_plots` (A), `C110_same_current` (A), `C110_empty_list_refuted` (E) |
| C111 (partial) | `C111_constants_partial` (C), `C111_documented_function` (C), `C111_noticeable_changes` (C), `C111_unnoticed_change_refuted` (E) |
| C112 (proved) | `C112_units` (C), `C112_final_solution` (C) |
| C113 (proved) | `C113_constants` (C), `C113_documented_functions` (C), `C113_counterpart` (C) |
| C114 (partial) | `C114_accepted` (C), `C114_constants_refuted` (E) |
| C115 (partial) | `C115_constants_partial` (C), `C115_start` (C), `C115_documented_functions` (C), `C115_unclassified_refuted` (E), `C115_accepted_nadir_refuted` (E) |
| C116 (partial) | `C116_constants_partial` (C), `C116_start` (C), `C116_counterpart` (C), `C116_reference_start_refuted` (E), `C116_short_classification_refuted` (E) |
| C117 (partial) | `C117_order_partial` (C), `C117_answers` (C), `C117_counterpart` (C), `C117_documented_function` (C), `C117_rounding_refuted` (E) |
| C118 (partial) | `C118_order_partial` (C), `C118_answers` (C), `C118_counterpart` (C), `C118_documented_functions` (C), `C118_nan_rank_refuted` (E), `C118_pairwise_ratios_refuted` (E) |
<!-- END ASSUMPTIONS -->
