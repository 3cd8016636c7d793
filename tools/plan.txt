C01|calculate_intermediate_points, the whole session state machine|MENautilus: en_intermediate, en_next, en_iterate, en_reach|closed form over XR by unfolding; any history by induction over en_reach; rounding bound for doubles through Flocq
C02|calculate_representative_points; KMeans + pairwise_distances is an oracle returning row positions|en_representatives|counting and membership over every reachable state
C03|calculate_bounds|en_bounds1, en_bounds|order-only, any OrdLaws arithmetic
C04|calculate_reachable_point_indices|en_reachable, row_in_box|unfolding, any arithmetic
C05|handle_initial_request, handle_request, iterate|en_iterate, en_reach|induction over the answers
C06|same, stop request|en_stop, en_handle_request|invariant over en_reach; closest row = chosen point at distance 0
C07|calculate_distances|en_distances|closed form over XR
C08|step back branch of handle_request|en_handle_request|the restored request is proved equal, field by field
C09|ENautilusRequest.validator|en_validate_req|"accepts iff" + witness
C10|validator, handle_request|en_validate_req, en_handle_request|"accepts iff" + witness
C11|ENautilusInitialRequest.validator|en_validate_init|"accepts iff"
C12|__init__|en_ctor_check|"accepts iff" over all shapes
C13|whole session, two objectives|en_reach; SENautilus session|geometric invariant over XR; the same invariant over any arithmetic in which computed points stay between their ends; error bounds for doubles; a stranded session of doubles
C14|whole session, any number of objectives|en_iterate|refuted by double precision sessions computed by the kernel; conditional progress by an invariant over all forward sessions
C15|iterate, failing calls|en_iterate as state transformer|the raised branch leaves the state equal
C16|NautilusNavigator counters|MNavigator: nv_iterate, nv_reach|invariant over nv_reach
C17|calculate_navigation_point|nv_nav_point, nv_forward|closed form over XR, any history
C18|same, 100 answers|nv_forward|induction over the steps
C19|calculate_bounds|nv_bounds|order-only, any OrdLaws arithmetic, induction over steps
C20|calculate_reachable_point_indices|nv_reachable|unfolding + invariant
C21|handle_request with go_to_previous|nv_back|field by field + witness
C22|NautilusNavigatorRequest.validator|nv_validate|"accepts iff" + witnesses
C23|update, solve_nautilus_asf_problem|nv_solve|partial positive + witness
C24|update|nv_forward, w_speed|exact value shown + witness
C25|handle_request with stop|nv_stop|invariant over nv_reach
C26|in-place writes to the front|heap model: h_get, h_set, nan_rows|invariant over nv_reach on the heap
C27|solve_nautilus_asf_problem|nv_solve|argmin over admissible rows
C28|whole session, two objectives|nv_reach; SNavAny plain_session|geometric invariant over XR; the same over any arithmetic in which computed points stay between their ends; error bounds for doubles; a stranded session of doubles
C29|NIMBUS state machine|MNimbus: nb_iterate, nb_reach|invariant over nb_reach
C30|save_solutions_to_archive|nb_save|invariant over nb_reach
C31|handlers between the phases|nb_save, nb_intermediate|invariant over nb_reach
C32|calculate_new_solutions|nb_new_solutions, disc_minimize|order/arithmetics over XR and doubles
C33|compute_intermediate_solutions|nb_between, nb_intermediate|closed form over XR + witness
C34|calculate_new_solutions on data problems|nb_solve, cons_disc|argmin argument over XR and doubles
C35|NimbusClassificationRequest.validator|nb_validate_cls|"accepts iff" + witnesses
C36|three index validators|nb_validate_save, nb_validate_inter, nb_validate_pref|"accepts iff" + witness
C37|handle_most_preferred_request|nb_handle_pref|invariant over nb_reach
C38|ReferencePointMethod rounds|MRpm: rp_round, rp_prp|any arithmetic; closed form over XR
C39|buffers of the method|rp_grow, sput, rp_reach|invariant over rp_reach
C40|answer with satisfied|rp_handle|invariant over rp_reach
C41|validate_reference_point|rp_validate_ref|"accepts iff" + witnesses
C42|solve_asf, ReferencePointASF|rp_disc, rp_asf|optimality over XR + witness
C43|NAUTILUS buffers and counters|MNautilus: nt_iterate, nt_reach|invariant over nt_reach
C44|calculate_iteration_point, calculate_distance|nt_point, nt_dist|closed form over XR, induction over steps
C45|calculate_iteration_point, solve_asf|nt_point, nt_solve, rp_asf|induction over steps; bound from optimality
C46|validate_preferences, calculate_preferential_factors|nt1_check, nt1_factors|"accepts iff" + witnesses
C47|validate_response, handle_request|nt_validate, nt_handle|case analysis over all accepted responses + witnesses
C48|calculate_doi|nt2_doi, doi_loop (fuel; divergence is a theorem about all fuels)|induction on passes
C49|NAUTILUS V2 buffers|nt_reach, variant V2|invariant over nt_reach + witness
C50|NAUTILUS V2 points|nt_point|closed form over XR
C51|construct_lppp_A/b, solve_linear_parametric_problem|MParetoNav: pn_lppp, pn_solve|LP algebra over reals (PLp.v), any history
C52|handle_solution_request|pn_handle_solution, pn_extremes|order-only, any history
C53|handle_request|pn_handle, p_speed|sign invariant over histories + witness
C54|classification_to_ref_point|pn_class_ref|case analysis + witnesses
C55|ParetoNavigatorRequest.response, calculate_speed|pn_check_speed, pn_speed_of|"accepts iff" + witnesses
C56|PAINT.approximate|MPaint: pt_run, pt_rule1, pt_rule2|loop invariants
C57|PAINT.approximate|pt_rule1, pt_rule2|loop invariants
C58|perturbate|pt_perturbate|equality of results for any number of perturbations
C59|payoff_table_method(_general)|MSolvers: sv_payoff|fold invariants, any arithmetic
C60|solve_pareto_front_representation_general|sv_loop, sv_pass|fold invariants + witnesses
C61|interactive/__init__.py|MExports: namespace|computation over all names
C62|E-NAUTILUS whole session|en_session|convexity invariant over XR; the same with an error bound for doubles; a witness
C63|Navigator failing calls|nv_iterate|the raised branch leaves the state equal except the speed
C64|Navigator calculate_bounds|nv_bounds|order-only
C65|NIMBUS.__init__|nb_start_ok, nb_init|"accepts iff" + witness
C66|reference point method failing calls|rp_handle|witness
C67|constraints in NAUTILUS|nt_problem, nt_solve|independence theorem for all problems + witness
C68|NAUTILUS handle_request|nt_handle|theorem for all sessions
C69|constructors|nt_ctor_check|"accepts iff" + witnesses
C70|NAUTILUS failing calls|nt_forward|witness
C71|NAUTILUS calculate_bounds|nt_bounds|invariant over nt_reach; optimality over XR
C72|Pareto Navigator start|pn_handle_initial|case analysis + witness
C73|Pareto Navigator solution request|pn_handle_solution, pn_disc|any history
C74|Pareto Navigator iterate|pn_iterate|totality over accepted answers + witness
C75|Pareto Navigator failing calls|pn_handle|any state
C76|solve_linear_parametric_problem|pn_solve|LP optimality over reals
C77|solve_linear_parametric_problem|pn_solve|LP optimality over reals
C78|response setters|pn_validate|case analysis + witnesses
C79|polyhedral_set_eq|pn_polyhedral|convex hull contract, any history
C80|sort_wrt_entries, swaps|pt_sort, pt_swap|sorting invariant
C81|approximate on the outcomes|pt_run|loop invariant + exact dominance
C82|approximate|pt_run|loop invariant + exact dominance
C83|exceptions of PAINT|pt_ctor, pt_approximate|case analysis
C84|weighted_scalarizer|sv_weighted|sums of doubles (F64Sums.v) and of XR + witness
C85|payoff table nadir|sv_payoff|optimality argument, XR and doubles + witness
C86|constraints in front representation|sv_front, sp_constraints|independence theorem + witness
C87|rows of the representation|sv_loop|fold invariant + witness
C88|reference points of the representation|sv_grid, sv_mesh|closed form over XR
C89|unknown ideal and nadir|sv_points|case analysis + witnesses
C90|step validation|sv_step, sv_steps|"accepts iff" + witness
C91|create_plot_request, request_stop, the pairs returned by iterate|MNimbusPlot: nb_create_plot, nb_iterate_p, nb_reach_p|step-by-step refinement of MNimbus's iterate; induction over histories; witness for the failing plot
C92|update: self._reference_point = ref_point, np.allclose(ref_point, self._reference_point)|MNavAlias: nva_step, nva_run on a heap of the caller's arrays|simulation by the by-value model when arrays are left alone; for one array edited in place, simulation by the session that repeats the first reference point; witness
C93|iterate, calculate_new_solutions, compute_intermediate_solutions on DiscreteDataProblem|MNimbus: nb_iterate, nb_reach|both directions for the masked minimisation (some row unmasked, all rows NaN); totality of the intermediate points; C36 for the rest
C94|iterate with the plots, all phases|MNimbusPlot: nb_iterate_p, nb_reach_p|invariant: which non-empty requests have been returned in each phase; one always-working answer per phase composed
C95|response setters and iterate of all methods|MObjects: ob_exec, ob_run, nb_calls .. pn_calls|frame lemma for the answered slot; generic invariant: every answering dictionary is acceptable, instantiated with the six reachability relations
C96|start, iterate of ENautilus and NautilusNavigator|MENautilus, MNavigator|invariant by the program logic of Hoare.v; the Navigator's global invariant
C97|NautilusNavigator.__init__|MNavigator: nv_ctor_check|case analysis on the shapes
C98|ReferencePointMethod.__init__|MRpm: rp_ctor_check|"accepts iff" by case analysis + witnesses
C99|NIMBUS.__init__, calculate_new_solutions, compute_intermediate_solutions, iterate|MNimbus; MNimbusAsf (documented formulas of desdeo_tools)|invariant over all histories: rows strictly better than a feasible row are feasible, so the constrained minimum is globally weakly optimal; relational lemma for the documented formulas over exact reals; doubles witness
C100|validators and response setters of the Navigator, NIMBUS, RPM, NAUTILUS|MNavigator, MNimbus, MRpm, MNautilus: *_validate|case analysis on the answer; witnesses of the other exceptions
C101|NautilusNavigator.update|MNavigator: allclose, nv_forward|characterization of allclose over the extended reals; induction on sessions; doubles witness
C102|validate_n2_preferences, validate_response|nt_validate|case analysis of the validator
C103|iterate of all methods|nv_iterate, nb_iterate, rp_iterate, nt_iterate, pn_iterate|computation in every state
C104|ReferencePointMethod.py 348-526|rp_round, rp_handle, rp_iterate, rp_play (spec)|the round as a pure function of the reference point (rout); slot of the current iteration equal after a successful round; induction over the later answers
C105|NautilusNavigator.py 372-935|nv_init, nv_iterate, nv_validate|simulation between the two objects: equal fields, corresponding row numbers; the projection picks the same row when there are no ties; lower and upper bounds are extrema over a set
C106|ENautilus.py 297-363, NautilusNavigator.py 302-359, Nautilus.py / NautilusV2.py handle_request, ReferencePointMethod.py 437-526, ParetoNavigator.py 474-560|the iterate functions; ends (SFinish.v): n accepted answers lead to a stop request|an explicit answer per method, shown accepted and successful from the invariants of reachable states (counters low enough, history slots present, issued requests well-formed)
C107|ParetoNavigator.py: iterate and its handlers, constructor|MParetoNav.v|case analysis of each handler under the session invariants of PParetoNav5 (PropsParetoNav2.v)
C108|Nautilus.py 455-754, NautilusV2.py 515-813|MNautilus.v; went_back, full_back (SNautBack.v)|all steps back write only the slots of the current step (frame lemmas); a full step back is a function of the other slots (PNautilus11.v)
C109|utilities/solvers.py, the slices and np.mgrid|MSolvers sv_axis/sv_axes/sv_mesh/sv_front on doubles (F64), SSolversF.v|rounding errors through Flocq: the quotient times the step is the length of the axis up to eps/4, each grid point is within eps/4
C110|NIMBUS.iterate and its handlers, the archive|MNimbus, MNimbusPlot, transcripts of sessions in SNimbus4|simulation between a session and the one with the archive emptied; induction on the answers
C111|NautilusNavigator.update and its helpers|MNavigator.v, SNavShift.v|simulation: every computation commutes with adding the constants (PNavShift.v), then induction over two parallel histories
C112|ENautilus: all calls|MENautilus.v (en_iterate and all it calls), two objects side by side (SENUnits.v)|relational simulation over the state/exception monad: the second state is the first one converted, shapes are invariant (PENUnits.v, PENUnits2.v); C112_units by induction over the histories of the two objects
C113|Nautilus, NautilusV2: all handlers|MNautilus: nt_iterate, nt_validate; MAsf: rp_asf|simulation between the two objects over XR (SNautShift, PNautShift)
C114|ReferencePointMethod: weights, solve_asf|MRpm: rp_round, rp_validate|validator over XR; counterexample in doubles
C115|NIMBUS: constructor, iterate, validators|MNimbus: nb_init, nb_iterate, nb_validate; MNimbusAsf: nb_asf_doc|simulation between the two objects over XR (SNimbusShift, PNimbusShift, PNimbusShift2); counterexamples in doubles
C116|ParetoNavigator: constructor, iterate, handlers, validators|MParetoNav: pn_ctor, pn_iterate, pn_validate|simulation between the two objects over XR (SPnShift, PPnShift); counterexamples in doubles
C117|ReferencePointMethod: iterate, setters|MRpm: rp_iterate, rp_validate; MAsf: rp_asf, rp_disc|simulation between the two objects over XR (SRpmOrder, POrder, PRpmOrder); counterexample in doubles
C118|Nautilus, NautilusV2: iterate, handlers, validators|MNautilus: nt_iterate, nt_validate|simulation between the two objects over XR (SNautOrder, POrder, PNautOrder); counterexamples in doubles
