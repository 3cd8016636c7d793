(** * Properties of E-NAUTILUS (C01-C15) *)
From Coq Require Import ZArith List Bool Lia Reals Lra Floats.
From Verif Require Import Num NumXR NumF64 Py Np Spec NpFacts XRFacts MENautilus PENautilus PENautilus2 PENautilus3 PENautilus4 PENautilus5.
Import ListNotations.

(** ** C01: intermediate points are exact convex combinations.
    [F] is the front, [nd] the nadir, both finite; the method object has any
    history behind it. *)
Theorem C01_first_request_points :
  forall F nd k ideal vars s qs i0 n0 km d s' q,
  Forall (fun r => length r = k) F -> length nd = k ->
  en_reach (xm F) ideal (xv nd) vars s qs -> In (EInit i0 n0) qs ->
  en_iterate km (EInit i0 n0) (Some d) s = (s', Ok q) ->
  exists mi c n zbars, q = EReq mi c /\
    option_map as_int (d_n_iterations d) = Some (Some n) /\ ec_left c = n /\ n <> 0%Z /\
    incl zbars F /\
    ec_points c = map (fun z => xv (rcomb (IZR (n - 1) / IZR n) nd (1 / IZR n) z)) zbars.
Proof. exact first_request_points. Qed.
Print Assumptions C01_first_request_points.

(** [c0] is any request issued so far (a stale one included) whose shown point
    number [i] is [p] and whose bounds are vectors of the right length. *)
Theorem C01_next_request_points :
  forall F nd k ideal vars s qs mi0 c0 km d i p s' mi c,
  Forall (fun r => length r = k) F -> length nd = k ->
  en_reach (xm F) ideal (xv nd) vars s qs -> In (EReq mi0 c0) qs ->
  is_matrix k (ec_lb c0) -> is_matrix k (ec_ub c0) ->
  d_step_back d = Some false -> d_index d = Some i -> (0 <= i)%Z ->
  nth_error (ec_points c0) (Z.to_nat i) = Some (xv p) -> length p = k ->
  en_iterate km (EReq mi0 c0) (Some d) s = (s', Ok (EReq mi c)) ->
  exists n zbars lb ub, ec_left c = n /\ n <> 0%Z /\
    nth_error (ec_lb c0) (Z.to_nat i) = Some lb /\ nth_error (ec_ub c0) (Z.to_nat i) = Some ub /\
    Forall (fun z => In z F /\ in_box (xv z) lb ub) zbars /\
    ec_points c = map (fun z => xv (rcomb (IZR (n - 1) / IZR n) p (1 / IZR n) z)) zbars.
Proof. exact next_request_points. Qed.
Print Assumptions C01_next_request_points.

(** The hypotheses of the three C01 theorems (and of C02, C06, C07 below) are met
    by a session on the front (0,2),(1,1),(2,0) with nadir (2,2), decision
    vectors 10, 11, 12, two iterations and two points; the clustering is a total
    one. *)
Example C01_hypotheses_met :
  exists s1 mi1 c1 s2 mi2 c2 s3 o x p,
    km_ok dkm' /\ en_validate_init dd0 = Ok tt /\
    en_iterate dkm' (en_start ds0) (Some dd0) ds0 = (s1, Ok (EReq mi1 c1)) /\
    en_reach (xm dF) (xv [0;0]%R) (xv dnd) (Some dV) s1 [EReq mi1 c1; en_start ds0] /\
    is_matrix 2 (ec_lb c1) /\ is_matrix 2 (ec_ub c1) /\
    d_step_back dd1 = Some false /\ d_index dd1 = Some 0%Z /\
    nth_error (ec_points c1) 0 = Some (xv p) /\ length p = 2 /\ es_npoints s1 = Some 2%Z /\
    en_validate_req mi1 dd1 = Ok tt /\
    en_iterate dkm' (EReq mi1 c1) (Some dd1) s1 = (s2, Ok (EReq mi2 c2)) /\ ec_left c2 = 1%Z /\
    en_iterate dkm' (EReq mi2 c2) (Some dd1) s2 = (s3, Ok (EStop o x)).
Proof.
  destruct demo as (s1 & mi1 & c1 & s2 & mi2 & c2 & s3 & o & x & p & H1 & H2 & H3 & _ & _ & H4 & H5 & H6 & H7 & H8 & _ & H9 & H10 & _ & H11).
  exists s1, mi1, c1, s2, mi2, c2, s3, o, x, p.
  repeat (split; [solve [auto | apply dkm_total | reflexivity]|]). auto.
Qed.

(** With one iteration left the shown points are rows of the front. *)
Theorem C01_last_points_on_front :
  forall F nd k ideal vars s qs mi0 c0 km d i p s' mi c,
  Forall (fun r => length r = k) F -> length nd = k ->
  en_reach (xm F) ideal (xv nd) vars s qs -> In (EReq mi0 c0) qs ->
  is_matrix k (ec_lb c0) -> is_matrix k (ec_ub c0) ->
  d_step_back d = Some false -> d_index d = Some i -> (0 <= i)%Z ->
  nth_error (ec_points c0) (Z.to_nat i) = Some (xv p) -> length p = k ->
  en_iterate km (EReq mi0 c0) (Some d) s = (s', Ok (EReq mi c)) ->
  ec_left c = 1%Z -> incl (ec_points c) (xm F).
Proof. exact last_points_on_front. Qed.
Print Assumptions C01_last_points_on_front.

(** ** C02: as many points as asked for, or as reachable solutions exist; each
    generated by a reachable front row.  [km_ok]: the clustering returns the
    requested number of valid row positions. *)
Theorem C02_number_of_points :
  forall (N : NumOps) (front : list (list N)) k ideal nadir vars s qs mi0 c0 km d i np s' mi c,
  is_matrix k front ->
  en_reach front ideal nadir vars s qs -> In (EReq mi0 c0) qs ->
  is_matrix k (ec_lb c0) -> is_matrix k (ec_ub c0) ->
  d_step_back d = Some false -> d_index d = Some i -> (0 <= i)%Z ->
  km_ok km -> es_npoints s = Some np -> (1 <= np)%Z ->
  en_iterate km (EReq mi0 c0) (Some d) s = (s', Ok (EReq mi c)) ->
  exists lb ub ids, nth_error (ec_lb c0) (Z.to_nat i) = Some lb /\ nth_error (ec_ub c0) (Z.to_nat i) = Some ub /\
    increasing ids /\
    (forall j, In j ids <-> exists row, nth_error front j = Some row /\ in_box row lb ub) /\
    Z.of_nat (length (ec_points c)) = Z.min np (Z.of_nat (length ids)).
Proof. exact @number_of_points_any. Qed.
Print Assumptions C02_number_of_points.

Theorem C02_first_number_of_points :
  forall (N : NumOps) (front : list (list N)) ideal nadir vars km d s s' i0 n0 q,
  s = en_init front ideal nadir vars -> km_ok km -> en_validate_init d = Ok tt ->
  en_iterate km (EInit i0 n0) (Some d) s = (s', Ok q) ->
  exists mi c np, q = EReq mi c /\ option_map as_int (d_n_points d) = Some (Some np) /\
    Z.of_nat (length (ec_points c)) = Z.min np (Z.of_nat (length front)).
Proof. exact @first_number_of_points_any. Qed.
Print Assumptions C02_first_number_of_points.

(** The number kept by the method is the one asked for, until the initial request
    is answered again. *)
Theorem C02_number_kept :
  forall (N : NumOps) (km : @km_oracle N) d s s' s2 i0 n0 q,
  en_iterate km (EInit i0 n0) (Some d) s = (s', Ok q) -> en_later s' s2 ->
  exists np, option_map as_int (d_n_points d) = Some (Some np) /\ es_npoints s2 = Some np.
Proof.
  intros N km d s s' s2 i0 n0 q H Hl. destruct (npoints_of_initial km d s s' i0 n0 q H) as (np & A & B).
  exists np. split; auto. destruct (en_later_data _ _ Hl) as [_ E]. congruence.
Qed.
Print Assumptions C02_number_kept.

(** The representatives themselves, for every arithmetic instance. *)
Theorem C02_representatives :
  forall (N : NumOps) (km : @km_oracle N) front idx np zbars,
  km_ok km -> (1 <= np)%Z ->
  en_representatives km front idx np = Ok zbars ->
  (exists ids, incl ids (idx_list idx) /\ Forall2 (fun i row => nth_error front i = Some row) ids zbars) /\
  Z.of_nat (length zbars) = Z.min np (Z.of_nat (length (idx_list idx))).
Proof. exact @en_representatives_spec. Qed.
Print Assumptions C02_representatives.

(** ** C03: bounds.  Holds for every arithmetic whose comparisons are lawful,
    in particular for IEEE doubles ([F64_ord]) and exact reals ([XR_ord]). *)
Theorem C03_bounds :
  forall (N : NumOps), OrdLaws N ->
  forall k front ideal nadir vars s qs km q0 d s' mi c,
  @is_matrix N k front -> nan_free_m front -> length nadir = k ->
  en_reach front ideal nadir vars s qs -> In q0 qs ->
  (forall mi0 c0, q0 = EReq mi0 c0 -> d_step_back d = Some false) ->
  en_iterate km q0 (Some d) s = (s', Ok (EReq mi c)) ->
  length (ec_lb c) = length (ec_points c) /\ length (ec_ub c) = length (ec_points c) /\
  forall j z lb ub, nth_error (ec_points c) j = Some z ->
    nth_error (ec_lb c) j = Some lb -> nth_error (ec_ub c) j = Some ub ->
    length lb = k /\ length ub = k /\
    (forall r lo hi, nth_error lb r = Some lo -> nth_error ub r = Some hi ->
       nleb lo hi = true /\
       (exists row, In row front /\ ok_except r row z /\ nth_error row r = Some lo) /\
       (exists row, In row front /\ ok_except r row z /\ nth_error row r = Some hi) /\
       (forall row x, In row front -> ok_except r row z -> nth_error row r = Some x ->
          nleb lo x = true /\ nleb x hi = true)) /\
    (forall row, In row front -> vle row z -> in_box row lb ub).
Proof. exact @bounds_of_request. Qed.
Print Assumptions C03_bounds.

Example C03_hypotheses_met :
  @is_matrix F64 3 wf3 /\ nan_free_m wf3 /\
  (exists s' mi c, en_iterate km_none (en_start ws3) (Some (ed0 2 5)) ws3 = (s', Ok (EReq mi c)) /\
     length (ec_points c) = 4).
Proof.
  split; [repeat constructor|]. split; [repeat constructor|].
  exists (fst wr3), (get_mi wr3), (get_c wr3). split; [apply is_req_eq; vm_compute; reflexivity|].
  vm_compute. reflexivity.
Qed.

(** ** C04 *)
Theorem C04_reachable_indices :
  forall (N : NumOps) k (front : list (list N)) lb ub,
  is_matrix k front -> length lb = k -> length ub = k ->
  exists idx, en_reachable front lb ub = Ok idx /\
    increasing (idx_list idx) /\
    forall i, In i (idx_list idx) <-> exists row, nth_error front i = Some row /\ in_box row lb ub.
Proof. exact @en_reachable_spec. Qed.
Print Assumptions C04_reachable_indices.

(** ** C05: a session of n iterations *)
Theorem C05_session_length :
  forall (N : NumOps) (km : @km_oracle N) d0 s s1 q1 ds s' qs n ideal nadir,
  en_iterate km (EInit ideal nadir) (Some d0) s = (s1, Ok q1) ->
  option_map as_int (d_n_iterations d0) = Some (Some n) -> (1 <= n)%Z ->
  Z.of_nat (length ds) = n ->
  Forall (fun d => d_step_back d = Some false /\ d_change d = Some false) ds ->
  en_answers s1 q1 ds s' qs ->
  map remaining (q1 :: qs) = map (fun i => Some (Z.of_nat i)) (rev (seq 0 (S (length ds)))) /\
  is_stop (last qs q1) /\ es_left s' = Some 0%Z.
Proof. exact @session_length. Qed.
Print Assumptions C05_session_length.

Example C05_hypotheses_met :
  exists s1 q1 s3 q2 q3, en_iterate dkm' (en_start ds0) (Some dd0) ds0 = (s1, Ok q1) /\
    option_map as_int (d_n_iterations dd0) = Some (Some 2%Z) /\
    Forall (fun d => d_step_back d = Some false /\ d_change d = Some false) [dd1; dd1] /\
    en_answers s1 q1 [dd1; dd1] s3 [q2; q3].
Proof.
  destruct demo as (s1 & mi1 & c1 & s2 & mi2 & c2 & s3 & o & x & p & H1 & H2 & H3 & _).
  exists s1, (EReq mi1 c1), s3, (EReq mi2 c2), (EStop o x). split; [exact H1|]. split; [reflexivity|].
  split; [repeat constructor|]. econstructor; eauto. econstructor; eauto. constructor.
Qed.

(** ** C06: the final solution *)
Theorem C06_final_solution :
  forall F nd k ideal vars s qs mi0 c0 km d i p s1 mi c km2 d2 s2 obj sol,
  Forall (fun r => length r = k) F -> length nd = k ->
  en_reach (xm F) ideal (xv nd) vars s qs -> In (EReq mi0 c0) qs ->
  is_matrix k (ec_lb c0) -> is_matrix k (ec_ub c0) ->
  d_step_back d = Some false -> d_index d = Some i -> (0 <= i)%Z ->
  nth_error (ec_points c0) (Z.to_nat i) = Some (xv p) -> length p = k ->
  en_iterate km (EReq mi0 c0) (Some d) s = (s1, Ok (EReq mi c)) ->
  ec_left c = 1%Z ->
  d_step_back d2 = Some false ->
  en_iterate km2 (EReq mi c) (Some d2) s1 = (s2, Ok (EStop obj sol)) ->
  exists row, In row F /\ obj = xv row /\
    (exists i2, d_index d2 = Some i2 /\ py_nth (ec_points c) i2 = Ok obj) /\
    match vars with
    | None => sol = None
    | Some V => exists j x, nth_error F j = Some row /\ nth_error V j = Some x /\ sol = Some x
    end.
Proof. exact final_solution. Qed.
Print Assumptions C06_final_solution.

(** ** C07: distances *)
Theorem C07_first_distance :
  forall F nd k ideal vars s qs i0 n0 km d s' mi c,
  Forall (fun r => length r = k) F -> length nd = k ->
  en_reach (xm F) ideal (xv nd) vars s qs -> In (EInit i0 n0) qs ->
  en_validate_init d = Ok tt ->
  en_iterate km (EInit i0 n0) (Some d) s = (s', Ok (EReq mi c)) ->
  exists n zbars, option_map as_int (d_n_iterations d) = Some (Some n) /\ incl zbars F /\
    ec_points c = map (fun z => xv (rcomb (IZR (n - 1) / IZR n) nd (1 / IZR n) z)) zbars /\
    Forall2 (fun z dist => if list_eq_dec Req_EM_T z nd then dist = XNan else dist = Fin (100 / IZR n)) zbars (ec_dist c).
Proof. exact first_distance. Qed.
Print Assumptions C07_first_distance.

Theorem C07_next_distance :
  forall F nd k ideal vars s qs mi0 c0 km d i p s' mi c,
  Forall (fun r => length r = k) F -> length nd = k ->
  en_reach (xm F) ideal (xv nd) vars s qs -> In (EReq mi0 c0) qs ->
  is_matrix k (ec_lb c0) -> is_matrix k (ec_ub c0) ->
  d_step_back d = Some false -> d_index d = Some i -> (0 <= i)%Z ->
  nth_error (ec_points c0) (Z.to_nat i) = Some (xv p) -> length p = k ->
  en_iterate km (EReq mi0 c0) (Some d) s = (s', Ok (EReq mi c)) ->
  exists zbars, incl zbars F /\
    Forall2 (fun z y => y = xv (rcomb (IZR (ec_left c - 1) / IZR (ec_left c)) p (1 / IZR (ec_left c)) z)) zbars (ec_points c) /\
    Forall2 (fun z dist => z <> nd ->
       dist = Fin (100 * rdist (rcomb (IZR (ec_left c - 1) / IZR (ec_left c)) p (1 / IZR (ec_left c)) z) nd / rdist z nd) /\
       (ec_left c = 1%Z -> dist = Fin 100)) zbars (ec_dist c).
Proof. exact next_distance. Qed.
Print Assumptions C07_next_distance.

(** ** C08: stepping back.  [s_old]: the state when request [c] was current;
    [s]: the state after anything that happened since (except answering the
    initial request again). *)
Theorem C08_step_back_faithful :
  forall (N : NumOps) (s_old s : en_state N) mi c mi2 c2 dback,
  es_left s_old = Some (ec_left c) -> ec_ideal c = es_ideal s_old -> ec_nadir c = es_nadir s_old ->
  en_max_index (ec_points c) = Ok mi ->
  en_later s_old s ->
  d_step_back dback = Some true ->
  d_prev_solutions dback = Some (ec_points c) -> d_prev_lb dback = Some (ec_lb c) -> d_prev_ub dback = Some (ec_ub c) ->
  d_iterations_left dback = Some (ec_left c) -> d_prev_dist dback = Some (ec_dist c) ->
  exists s', (forall km, en_iterate km (EReq mi2 c2) (Some dback) s = (s', Ok (EReq mi c))) /\
    forall km d, d_step_back d = Some false ->
      snd (en_iterate km (EReq mi c) (Some d) s') = snd (en_iterate km (EReq mi c) (Some d) s_old).
Proof. exact @step_back_faithful. Qed.
Print Assumptions C08_step_back_faithful.

(** The hypotheses on [s_old] hold right after the method issued [c]. *)
Theorem C08_issued_request :
  forall (N : NumOps) (km : @km_oracle N) q0 d s s_old mi c,
  en_iterate km q0 (Some d) s = (s_old, Ok (EReq mi c)) ->
  es_left s_old = Some (ec_left c) /\ ec_ideal c = es_ideal s_old /\ ec_nadir c = es_nadir s_old /\
  en_max_index (ec_points c) = Ok mi.
Proof. exact @issued_request. Qed.
Print Assumptions C08_issued_request.

Example C08_hypotheses_met :
  exists s1 mi1 c1 s2 mi2 c2, 
    en_iterate dkm' (en_start ds0) (Some dd0) ds0 = (s1, Ok (EReq mi1 c1)) /\
    en_iterate dkm' (EReq mi1 c1) (Some dd1) s1 = (s2, Ok (EReq mi2 c2)) /\ en_later s1 s2 /\
    let dback := MkED None None (Some 0%Z) (Some true) (Some false) (Some (ec_left c1)) None
                      (Some (ec_points c1)) (Some (ec_lb c1)) (Some (ec_ub c1)) (Some (ec_dist c1)) in
    en_validate_req mi2 dback = Ok tt.
Proof.
  destruct demo as (s1 & mi1 & c1 & s2 & mi2 & c2 & s3 & o & x & p & H1 & H2 & H3 & _).
  exists s1, mi1, c1, s2, mi2, c2. split; auto. split; auto. split; [|reflexivity].
  econstructor; [constructor| |exact H2]. discriminate.
Qed.

(** Which step-back answers are accepted: exactly those that carry the earlier
    points, both their bounds, the iteration count and the distances. *)
Theorem C08_step_back_accepted_iff :
  forall (N : NumOps) mi (d : en_dict N), d_step_back d = Some true ->
  (en_validate_req mi d = Ok tt <->
   d_index d <> None /\ d_change d <> None /\
   d_prev_solutions d <> None /\ d_prev_lb d <> None /\ d_prev_ub d <> None /\
   d_iterations_left d <> None /\ d_prev_dist d <> None).
Proof.
  intros N mi d H. unfold en_validate_req. rewrite H. cbn [negb].
  destruct (d_index d), (d_change d), (d_prev_solutions d), (d_prev_lb d), (d_prev_ub d), (d_iterations_left d),
    (d_prev_dist d); split; intro E; try discriminate E; try reflexivity; repeat split; try discriminate;
    destruct E as (E1 & E2 & E3 & E4 & E5 & E6 & E7); congruence.
Qed.
Print Assumptions C08_step_back_accepted_iff.

(** ** C09: the accepted indices, exactly; and the defect. *)
Theorem C09_accepted_index_iff :
  forall (N : NumOps) (points : list (list N)) mi (d : en_dict N) i,
  en_max_index points = Ok mi -> d_index d = Some i -> d_step_back d = Some false -> d_change d = Some false ->
  (en_validate_req mi d = Ok tt <->
   (0 <= i <= match points with [r] => Z.of_nat (length r) | _ => Z.of_nat (length points) end)%Z).
Proof. exact @accepted_index_iff. Qed.
Print Assumptions C09_accepted_index_iff.

(** Index [number of points] always passes and then raises IndexError: for every
    state and every request with at least two points. *)
Theorem C09_index_validation_refuted :
  forall (N : NumOps) (s : en_state N) (km : @km_oracle N) c mi (d : en_dict N),
  2 <= length (ec_points c) -> en_max_index (ec_points c) = Ok mi ->
  d_index d = Some (Z.of_nat (length (ec_points c))) -> d_step_back d = Some false -> d_change d = Some false ->
  en_validate_req mi d = Ok tt /\ en_iterate km (EReq mi c) (Some d) s = (s, Raise IndexErr).
Proof. exact @index_validation_refuted. Qed.
Print Assumptions C09_index_validation_refuted.

(** A rejected answer is always rejected with the exception of the method
    (ENautilusException), whatever is wrong or missing in it. *)
Theorem C09_rejected_exception :
  forall (N : NumOps) (q : @en_request N) (d : en_dict N) e, en_validate q d = Raise e -> e = MethodExn.
Proof.
  intros N q d e H. destruct q as [?|mi c|]; cbn [en_validate] in H; [| |discriminate].
  - unfold en_validate_init in H.
    repeat (match type of H with context [match ?x with _ => _ end] => destruct x end; try discriminate); congruence.
  - unfold en_validate_req in H.
    repeat (match type of H with context [match ?x with _ => _ end] => destruct x end; try discriminate); congruence.
Qed.
Print Assumptions C09_rejected_exception.

(** What does hold: every index that designates a shown point is accepted, and an
    accepted answer never raises IndexError when its index designates a point
    and the request carries one bound vector per point. *)
Theorem C09_valid_index_accepted_partial :
  forall (N : NumOps) (points : list (list N)) mi (d : en_dict N) i,
  en_max_index points = Ok mi -> d_index d = Some i -> d_step_back d = Some false -> d_change d = Some false ->
  (0 <= i < Z.of_nat (length points))%Z -> en_validate_req mi d = Ok tt.
Proof. exact @valid_index_accepted. Qed.
Print Assumptions C09_valid_index_accepted_partial.

(** ** C10 *)
Theorem C10_new_count_used_partial :
  forall (N : NumOps) (km : @km_oracle N) mi0 c0 d s s' mi c,
  d_step_back d = Some false -> d_change d = Some true ->
  en_iterate km (EReq mi0 c0) (Some d) s = (s', Ok (EReq mi c)) ->
  d_iterations_left d = Some (ec_left c) /\ es_left s' = Some (ec_left c) /\ ec_left c <> 0%Z.
Proof. exact @new_count_used. Qed.
Print Assumptions C10_new_count_used_partial.

Example C10_hypotheses_met :
  exists s' mi c, en_iterate km_none (EReq (get_mi wr2) (get_c wr2)) (Some (edi 0 true (Some 7%Z))) (fst wr2)
    = (s', Ok (EReq mi c)) /\ ec_left c = 7%Z.
Proof.
  set (r := en_iterate km_none (EReq (get_mi wr2) (get_c wr2)) (Some (edi 0 true (Some 7%Z))) (fst wr2)).
  exists (fst r), (get_mi r), (get_c r). split; [apply is_req_eq; vm_compute; reflexivity|vm_compute; reflexivity].
Qed.

(** The key named in the request's message is not the one that is read. *)
Theorem C10_documented_key_refuted :
  forall (N : NumOps) mi (d : en_dict N) i n,
  d_index d = Some i -> d_step_back d = Some false -> d_change d = Some true ->
  d_new_iterations_left d = Some n -> d_iterations_left d = None ->
  en_validate_req mi d = Raise MethodExn.
Proof. exact @documented_key_refuted. Qed.
Print Assumptions C10_documented_key_refuted.

(** Zero remaining iterations pass validation and fail later, after the method
    object has been changed. *)
Theorem C10_zero_iterations_refuted :
  exists (s s' : en_state F64) km mi c d,
    en_validate_req mi d = Ok tt /\ d_iterations_left d = Some 0%Z /\
    (exists km0 d0 s0, en_iterate km0 (en_start s0) (Some d0) s0 = (s, Ok (EReq mi c))) /\
    en_iterate km (EReq mi c) (Some d) s = (s', Raise ZeroDivErr) /\
    es_left s' = Some 0%Z /\ es_left s = Some 2%Z.
Proof. exact zero_iterations_refuted. Qed.
Print Assumptions C10_zero_iterations_refuted.

(** ** C11 *)
Theorem C11_initial_validation :
  forall (N : NumOps) (d : en_dict N),
  (en_validate_init d = Ok tt <->
   exists ni np zi zp, d_n_iterations d = Some ni /\ d_n_points d = Some np /\
     as_int ni = Some zi /\ as_int np = Some zp /\ (1 <= zi)%Z /\ (1 <= zp)%Z) /\
  (en_validate_init d <> Ok tt -> en_validate_init d = Raise MethodExn).
Proof. exact @initial_validation. Qed.
Print Assumptions C11_initial_validation.

(** ** C12 *)
Theorem C12_constructor :
  forall front_shape ideal_shape nadir_shape n_names,
  (en_ctor_check front_shape ideal_shape nadir_shape n_names = Ok tt <->
   exists rows k rest, front_shape = [rows; k] /\ ideal_shape = k :: rest /\ nadir_shape = ideal_shape /\
     (n_names = None \/ n_names = Some 0 \/ n_names = Some k)) /\
  (en_ctor_check front_shape ideal_shape nadir_shape n_names = Raise IndexErr <->
   exists rows k, front_shape = [rows; k] /\ ideal_shape = []) /\
  (en_ctor_check front_shape ideal_shape nadir_shape n_names <> Ok tt ->
   ideal_shape <> [] -> en_ctor_check front_shape ideal_shape nadir_shape n_names = Raise MethodExn).
Proof. exact ctor_spec. Qed.
Print Assumptions C12_constructor.

(** ** C13: progress with two objectives *)
Theorem C13_two_objective_progress :
  forall F nd ideal vars,
  Forall (fun r => length r = 2) F -> length nd = 2 -> F <> [] ->
  Forall (fun r => rvle r nd) F ->
  @mutually_nondominated XR (xm F) ->
  (forall V, vars = Some V -> length V = length F) ->
  forall s mi c, fwd F nd ideal vars s (EReq mi c) ->
  forall km d, km_total km -> fwd_answer c d ->
  exists i y, d_index d = Some i /\ nth_error (ec_points c) (Z.to_nat i) = Some (xv y) /\
    exists s' q, en_iterate km (EReq mi c) (Some d) s = (s', Ok q) /\
      (is_stop q \/
       exists mi' c', q = EReq mi' c' /\
         (forall j row, nth_error F j = Some row -> (In j (idx_list (es_idx s')) <-> rvle row y)) /\
         ec_points c' <> [] /\
         (forall v, In v (ec_points c') -> exists y' z, v = xv y' /\ In z F /\ rvle z y' /\ rvle y' y)).
Proof. exact fwd_progress. Qed.
Print Assumptions C13_two_objective_progress.

Example C13_hypotheses_met :
  exists s mi c, fwd dF dnd (xv [0;0]%R) (Some dV) s (EReq mi c) /\ km_total dkm' /\ fwd_answer c dd1 /\
    @mutually_nondominated XR (xm dF) /\ Forall (fun r => rvle r dnd) dF.
Proof.
  destruct demo as (s1 & mi1 & c1 & s2 & mi2 & c2 & s3 & o & x & p & H1 & H2 & H3 & H4 & H5 & _ & _ & _ & _ & _ & _ & _ & _ & H6 & _).
  exists s1, mi1, c1. split; auto. split; [apply dkm_total|]. split; [|split; [apply dF_mnd|apply dF_below]].
  repeat split; auto. exists 0%Z. split; auto. rewrite H6. cbn. auto with zarith.
Qed.

(** ** C14: with three objectives a shown point can be worse than the chosen one *)
Theorem C14_three_objective_progress_refuted :
  exists (front : list (list F64)) ideal nadir s0 km d0 s1 mi c d1 s2 mi2 c2 p y,
    mutually_nondominated front /\ Forall (fun r => vle r nadir /\ vle ideal r) front /\
    s0 = en_init front ideal nadir None /\
    en_validate_init d0 = Ok tt /\
    en_iterate km (en_start s0) (Some d0) s0 = (s1, Ok (EReq mi c)) /\
    en_validate_req mi d1 = Ok tt /\ d_step_back d1 = Some false /\
    py_nth (ec_points c) (match d_index d1 with Some i => i | None => (-1)%Z end) = Ok p /\
    en_iterate km (EReq mi c) (Some d1) s1 = (s2, Ok (EReq mi2 c2)) /\
    In y (ec_points c2) /\ ~ vle y p.
Proof. exact three_objective_refuted. Qed.
Print Assumptions C14_three_objective_progress_refuted.

(** ** C15 *)
Theorem C15_stop_is_identity :
  forall (N : NumOps) (km : @km_oracle N) s o x resp,
  en_iterate km (EStop o x) resp s = (s, Ok (EStop o x)).
Proof. reflexivity. Qed.
Print Assumptions C15_stop_is_identity.

Theorem C15_bad_index_changes_nothing :
  forall (N : NumOps) (km : @km_oracle N) mi c d s i,
  d_step_back d = Some false -> d_index d = Some i ->
  (Z.of_nat (length (ec_points c)) <= i)%Z ->
  en_iterate km (EReq mi c) (Some d) s = (s, Raise IndexErr).
Proof. exact @bad_index_changes_nothing. Qed.
Print Assumptions C15_bad_index_changes_nothing.

Theorem C15_no_response_changes_nothing :
  forall (N : NumOps) (km : @km_oracle N) q s,
  ~ is_stop q -> en_iterate km q None s = (s, Raise TypeErr).
Proof. exact @no_response_changes_nothing. Qed.
Print Assumptions C15_no_response_changes_nothing.

(** The data given to the constructor survive every history. *)
Theorem C15_data_never_changes :
  forall (N : NumOps) (front : list (list N)) ideal nadir vars s qs,
  en_reach front ideal nadir vars s qs ->
  es_front s = front /\ es_ideal s = ideal /\ es_nadir s = nadir /\ es_vars s = vars.
Proof. exact @en_reach_data. Qed.
Print Assumptions C15_data_never_changes.


(** ** C62: every point ever shown lies between ideal and nadir.
    [en_session]: any history of answered requests, stale ones included, whose
    step-backs repeat an earlier request and whose changed counts are positive. *)
Theorem C62_points_in_box :
  forall F id nd ideal vars s qs,
  length id = length nd -> Forall (fun r => rvle id r /\ rvle r nd) F -> rvle id nd ->
  en_session (xm F) ideal (xv nd) vars s qs ->
  (forall mi c v, In (EReq mi c) qs -> In v (ec_points c) -> exists y, v = xv y /\ rvle id y /\ rvle y nd) /\
  (forall mi c, In (EReq mi c) qs -> (1 <= ec_left c)%Z /\
     is_matrix (length nd) (ec_lb c) /\ is_matrix (length nd) (ec_ub c) /\
     length (ec_lb c) = length (ec_points c) /\ length (ec_ub c) = length (ec_points c)) /\
  (forall o x, In (EStop o x) qs -> exists y, o = xv y /\ rvle id y /\ rvle y nd).
Proof.
  intros F id nd ideal vars s qs H1 H2 H3 Hs.
  pose proof (session_good F id nd ideal vars H1 H2 H3 s qs Hs) as G. rewrite Forall_forall in G. repeat split.
  - intros mi c v Hq Hv. destruct (G _ Hq) as (_ & (pts & E & Hp) & _). rewrite E in Hv.
    apply in_map_iff in Hv. destruct Hv as (y & <- & Hy). rewrite Forall_forall in Hp. exists y. destruct (Hp y Hy). auto.
  - apply (G _ H).
  - apply (G _ H).
  - apply (G _ H).
  - apply (G _ H).
  - apply (G _ H).
  - intros o x Hq. exact (G _ Hq).
Qed.
Print Assumptions C62_points_in_box.

Example C62_hypotheses_met :
  Forall (fun r => rvle [0;0]%R r /\ rvle r dnd) dF /\
  exists s qs mi c mi' c', In (EReq mi c) qs /\ In (EReq mi' c') qs /\ ec_left c' = 1%Z /\ ec_left c = 2%Z /\
    en_session (xm dF) (xv [0;0]%R) (xv dnd) (Some dV) s qs.
Proof.
  split; [repeat constructor; lra|].
  destruct demo as (s1 & mi1 & c1 & s2 & mi2 & c2 & s3 & o & x & p & H1 & H2 & H3 & _ & _ & _ & _ & _ & _ & _ & H4 & H5 & _ & _ & H6).
  exists s2, [EReq mi2 c2; EReq mi1 c1; en_start ds0], mi1, c1, mi2, c2.
  split; [simpl; auto|]. split; [simpl; auto|]. split; auto. split; auto.
  apply (es_step (xm dF) (xv [0;0]%R) (xv dnd) (Some dV) s1 [EReq mi1 c1; en_start ds0] (EReq mi1 c1) (Some dd1) dkm' s2 (Ok (EReq mi2 c2))).
  - apply (es_step (xm dF) (xv [0;0]%R) (xv dnd) (Some dV) ds0 [en_start ds0] (en_start ds0) (Some dd0) dkm' s1 (Ok (EReq mi1 c1))); auto.
    + constructor.
    + left; auto.
    + intros d Hd. injection Hd as <-. split; [reflexivity|]. split; discriminate.
  - left; auto.
  - intros d Hd. injection Hd as <-. split; [exact H6|]. split; discriminate.
  - auto.
Qed.
