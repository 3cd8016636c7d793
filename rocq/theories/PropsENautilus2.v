(** * E-NAUTILUS: progress with any number of objectives (C14).
    Vocabulary in SENautilus.v ([forward_session], [moves_to], [chosen_bounds],
    [clusters], [stays_between]) and Spec.v. *)
From Coq Require Import ZArith List Bool Lia Reals Lra Floats.
From Verif Require Import Num NumXR NumF64 Py Np Spec NpFacts XRFacts MENautilus PENautilus PENautilus3 PENautilus4 F64Facts F64Sums SFloat SENautilus PENautilus7 PENautilus9 PropsDoubles4.
Import ListNotations.

(** ** C14: what is true for any number of objectives *)

(** When the upper bounds the request reports for the chosen point do not exceed the
    point itself, choosing it works: the next request can reach exactly the rows below
    the chosen point, shows at least one point, and no point it shows is worse than the
    chosen one in any objective.  Missing from C14: chosen points whose reported upper
    bounds exceed them (refuted below). *)
Theorem C14_progress_partial :
  forall (F : list (list R)) (nd : list R) ideal vars,
  Forall (fun r => length r = length nd) F -> (2 <= length nd)%nat -> F <> [] ->
  (forall V, vars = Some V -> length V = length F) ->
  forall s mi c, forward_session (xm F) ideal (xv nd) vars s (EReq mi c) ->
  forall km d y n' lb ub, clusters km -> moves_to c d y n' -> chosen_bounds c d lb ub ->
  ((1 < ec_left c)%Z -> vle ub y) ->
  exists s' q, en_iterate km (EReq mi c) (Some d) s = (s', Ok q) /\
    ((ec_left c <= 1)%Z /\ (exists x, q = EStop y x) \/
     (1 < ec_left c)%Z /\
     exists mi' c', q = EReq mi' c' /\ ec_left c' = n' /\
       (forall j row, nth_error (xm F) j = Some row -> (In j (idx_list (es_idx s')) <-> vle row y)) /\
       ec_points c' <> [] /\
       (forall v, In v (ec_points c') -> exists z, In z (xm F) /\ vle z v /\ vle v y)).
Proof.
  intros F nd ideal vars HF Hk Hne Hv s mi c Hf km d y n' lb ub Hkm Hm Hb Hub.
  eapply (progress9 (xm F) ideal (xv nd) vars); eauto.
  - apply xm_mat. auto.
  - unfold xv. rewrite map_length. auto.
  - apply xm_nan_free.
  - destruct F; [contradiction|discriminate].
  - intros V E. unfold xm. rewrite map_length. auto.
  - apply XR_ord.
  - intros Hl. split; [auto|]. pose proof Hm as (_ & (i & _ & _ & Ey) & Hch).
    destruct (forward_real F nd ideal vars HF s (EReq mi c) Hf mi c eq_refl y) as (yr & -> & _); [eapply nth_error_In; eauto|].
    apply real_between. destruct Hch as [[_ ->]|(_ & _ & H)]; lia.
Qed.
Print Assumptions C14_progress_partial.

(** The same in any arithmetic, when rounding does no harm ([stays_between]; with
    doubles that is so for rows clearly below the point, C13_rounding_safe_doubles). *)
Theorem C14_progress_any_arithmetic_partial :
  forall (N : NumOps) (L : OrdLaws N) (F : list (list N)) ideal nd vars,
  is_matrix (length nd) F -> (2 <= length nd)%nat -> nan_free_m F -> F <> [] ->
  (forall V, vars = Some V -> length V = length F) ->
  forall s mi c, forward_session F ideal nd vars s (EReq mi c) ->
  forall km d y n' lb ub, clusters km -> moves_to c d y n' -> chosen_bounds c d lb ub ->
  ((1 < ec_left c)%Z -> vle ub y /\ stays_between F n' y) ->
  exists s' q, en_iterate km (EReq mi c) (Some d) s = (s', Ok q) /\
    ((ec_left c <= 1)%Z /\ (exists x, q = EStop y x) \/
     (1 < ec_left c)%Z /\
     exists mi' c', q = EReq mi' c' /\ ec_left c' = n' /\
       (forall j row, nth_error F j = Some row -> (In j (idx_list (es_idx s')) <-> vle row y)) /\
       ec_points c' <> [] /\
       (forall v, In v (ec_points c') -> exists z, In z F /\ vle z v /\ vle v y)).
Proof. intros. eapply progress9; eauto. Qed.
Print Assumptions C14_progress_any_arithmetic_partial.

(** The reported lower bounds tell which points lead on: they do not exceed the point iff
    some row of the front lies below the point, and one component not exceeding it is
    enough. *)
Theorem C14_lower_bounds_tell :
  forall (N : NumOps) (L : OrdLaws N) (F : list (list N)) ideal nd vars,
  is_matrix (length nd) F -> (2 <= length nd)%nat -> nan_free_m F ->
  forall s mi c, forward_session F ideal nd vars s (EReq mi c) ->
  forall i y lb ub, nth_error (ec_points c) i = Some y -> nth_error (ec_lb c) i = Some lb -> nth_error (ec_ub c) i = Some ub ->
  ((exists z, In z F /\ vle z y) <-> vle lb y) /\
  ((exists r lo a, nth_error lb r = Some lo /\ nth_error y r = Some a /\ nleb lo a = true) -> vle lb y).
Proof.
  intros N L F ideal nd vars HF Hk Hnan s mi c Hf i y lb ub Ey Elb Eub.
  destruct (forward_inv F ideal nd vars _ _ Hf) as [(o & x & Hq)|(mi' & c' & Hq & HI)]; [discriminate|]. injection Hq as <- <-.
  destruct HI as (_ & _ & _ & _ & _ & _ & Hbd). destruct (en_bounds_ok _ _ _ _ _ Hbd) as (_ & _ & Hb).
  destruct (lower_tells F nd HF Hk Hnan L y lb ub (Hb _ _ _ _ Ey Elb Eub)) as [A B]. split; [exact A|].
  intros H. apply A. apply B. exact H.
Qed.
Print Assumptions C14_lower_bounds_tell.

(** Choosing a point whose reported lower bounds do not exceed it (exact arithmetic or
    any other): either a ValueError (the bounds of one of the next points cannot be
    computed, C14_answer_raises_refuted), or a request that shows at least one point, all rows of
    the front below the chosen point among those it considers reachable; and when at least
    as many points were asked for as the front has rows, one of the points shown has again
    a row below it, so the session can go on from there. *)
Theorem C14_choice_outcome_partial :
  forall (N : NumOps) (L : OrdLaws N) (F : list (list N)) ideal nd vars,
  is_matrix (length nd) F -> (2 <= length nd)%nat -> nan_free_m F ->
  forall s mi c, forward_session F ideal nd vars s (EReq mi c) ->
  forall km d y n' lb ub, clusters km -> moves_to c d y n' -> chosen_bounds c d lb ub -> (1 < ec_left c)%Z ->
  vle lb y ->
  snd (en_iterate km (EReq mi c) (Some d) s) = Raise ValueErr \/
  exists s' mi' c', en_iterate km (EReq mi c) (Some d) s = (s', Ok (EReq mi' c')) /\ ec_left c' = n' /\
    (forall j row, nth_error F j = Some row -> (In j (idx_list (es_idx s')) <-> in_box row lb ub)) /\
    (forall row, In row F -> vle row y -> in_box row lb ub) /\
    ec_points c' <> [] /\
    (forall np, es_npoints s = Some np -> (Z.of_nat (length F) <= np)%Z -> stays_between F n' y ->
      exists v z, In v (ec_points c') /\ In z F /\ vle z v).
Proof.
  intros N L F ideal nd vars HF Hk Hnan s mi c Hf km d y n' lb ub Hkm Hm Hb Hl Hle.
  eapply (outcome9 F ideal nd vars); eauto.
  destruct (forward_inv F ideal nd vars _ _ Hf) as [(o & x & Hq)|(mi' & c' & Hq & HI)]; [discriminate|]. injection Hq as <- <-.
  destruct HI as (_ & _ & _ & _ & _ & _ & Hbd). destruct (en_bounds_ok _ _ _ _ _ Hbd) as (_ & _ & Hb').
  destruct Hm as (_ & (i & Hi & _ & Ey) & _). destruct Hb as (i' & Hi' & Elb & Eub). rewrite Hi in Hi'. injection Hi' as <-.
  apply (proj1 (lower_tells F nd HF Hk Hnan L y lb ub (Hb' _ _ _ _ Ey Elb Eub))). exact Hle.
Qed.
Print Assumptions C14_choice_outcome_partial.

(** Whatever is chosen: every point shown next lies, in every objective, between the
    chosen point and a front row inside the bounds that were reported for the chosen
    point.  So an objective gets worse than in the chosen point only if the reported
    upper bound of the chosen point said so, and never beyond that bound. *)
Theorem C14_within_reported_bounds :
  forall (F : list (list R)) (nd : list R) ideal vars,
  Forall (fun r => length r = length nd) F ->
  forall s mi c, forward_session (xm F) ideal (xv nd) vars s (EReq mi c) ->
  forall km d y n' lb ub s' mi' c', moves_to c d y n' -> chosen_bounds c d lb ub ->
  en_iterate km (EReq mi c) (Some d) s = (s', Ok (EReq mi' c')) ->
  forall v, In v (ec_points c') ->
  exists yr vr z, y = xv yr /\ v = xv vr /\ In z F /\ in_box (xv z) lb ub /\ length yr = length nd /\ length vr = length nd /\
    forall j a b x, nth_error yr j = Some a -> nth_error z j = Some b -> nth_error vr j = Some x -> (Rmin a b <= x <= Rmax a b)%R.
Proof.
  intros F nd ideal vars HF s mi c Hf km d y n' lb ub s' mi' c' Hm Hb E v Hv.
  pose proof Hm as (Hsb & (i & Hi & Hi0 & Ey) & Hch).
  destruct (forward_real F nd ideal vars HF s (EReq mi c) Hf mi c eq_refl y) as (yr & -> & Hly); [eapply nth_error_In; eauto|].
  destruct (where9 (xm F) ideal (xv nd) vars (xm_mat F nd HF) s mi c Hf km d (xv yr) n' lb ub s' mi' c' Hm Hb E) as (_ & El & Hw).
  assert (Hn' : (1 <= n')%Z).
  { assert (Hf' : forward_session (xm F) ideal (xv nd) vars s' (EReq mi' c')) by (eapply forward_step; eauto).
    destruct (forward_inv _ _ _ _ _ _ Hf') as [(o & x & Hq)|(mi1 & c1 & Hq & HI)]; [discriminate|]. injection Hq as <- <-.
    destruct HI as (_ & _ & _ & _ & _ & Hl & _). lia. }
  destruct (Hw v Hv) as (z & Hz & Hbox & ->). apply in_map_iff in Hz. destruct Hz as (zr & <- & Hz).
  assert (Hlz : length zr = length nd) by (rewrite Forall_forall in HF; auto).
  rewrite towards_real by (auto; congruence).
  exists yr, (PENautilus2.step_towards n' yr zr), zr. split; [reflexivity|]. split; [reflexivity|]. split; [auto|]. split; [auto|]. split; [auto|].
  split; [rewrite PENautilus2.step_towards_length; congruence|].
  intros j a b x Ha Hb' Hx. apply (between_nth n' yr zr j a b x); auto. congruence.
Qed.
Print Assumptions C14_within_reported_bounds.

(** ** C14: dead ends with three and more objectives (IEEE doubles) *)
(** Three objectives, seven mutually nondominated outcomes, three iterations, all points
    shown.  Choosing the seventh point and then the second one leads to a request that
    shows no points: no row of the front lies in the bounds reported for the point chosen
    last.  Every answer that moves forward from there raises an exception. *)
Local Open Scope float_scope.
Definition t_front : list (list F64) := [[5;9;5]; [7;4;10]; [0;6;12]; [8;3;6]; [9;8;3]; [0;8;8]; [5;7;9]].
Definition t_ideal : list F64 := [0;3;3].
Definition t_nadir : list F64 := [9;9;12].
Definition t_s0 := en_init t_front t_ideal t_nadir None.
Definition t_a1 : en_dict F64 := edi 6 false None.
Definition t_a2 : en_dict F64 := edi 1 false None.
Definition t_f1 (q : en_request F64) (s : en_state F64) := en_iterate w_km q (Some t_a1) s.
Definition t_f2 (q : en_request F64) (s : en_state F64) := en_iterate w_km q (Some t_a2) s.
Definition t_r1 := en_iterate w_km (en_start t_s0) (Some (ed0 3 9)) t_s0.
Definition t_then (r : en_state F64 * res (en_request F64)) (f : en_request F64 -> en_state F64 -> en_state F64 * res (en_request F64)) :=
  match r with (s, Ok q) => f q s | x => x end.
Definition t_valid (q : en_request F64) (d : en_dict F64) : bool :=
  match q with EReq mi c => match en_validate_req mi d with Ok _ => true | _ => false end | _ => false end.
Definition t_check (r1 r2 r3 : en_state F64 * res (en_request F64)) : bool :=
  match r1, r2, r3 with
  | (_, Ok (EReq mi1 c1)), (_, Ok (EReq mi2 c2)), (_, Ok (EReq mi3 c3)) =>
      t_valid (EReq mi1 c1) t_a1 && t_valid (EReq mi2 c2) t_a2 && (ec_left c3 =? 1)%Z && match ec_points c3 with [] => true | _ => false end
  | _, _, _ => false
  end.
Lemma t_extract r1 f g : t_check r1 (t_then r1 f) (t_then (t_then r1 f) g) = true ->
  exists s1 mi1 c1 s2 mi2 c2 s3 mi3 c3, r1 = (s1, Ok (EReq mi1 c1)) /\ en_validate_req mi1 t_a1 = Ok tt /\
    f (EReq mi1 c1) s1 = (s2, Ok (EReq mi2 c2)) /\ en_validate_req mi2 t_a2 = Ok tt /\
    g (EReq mi2 c2) s2 = (s3, Ok (EReq mi3 c3)) /\ ec_left c3 = 1%Z /\ ec_points c3 = [].
Proof.
  unfold t_check. destruct r1 as [s1 [[|mi1 c1|]|]]; try discriminate. cbn [t_then].
  destruct (f (EReq mi1 c1) s1) as [s2 [[|mi2 c2|]|]] eqn:E; try discriminate. cbn [t_then].
  destruct (g (EReq mi2 c2) s2) as [s3 [[|mi3 c3|]|]] eqn:G; try discriminate.
  unfold t_valid. intros H. apply andb_prop in H as [H H4]. apply andb_prop in H as [H H3]. apply andb_prop in H as [H1 H2].
  exists s1, mi1, c1, s2, mi2, c2, s3, mi3, c3. split; [reflexivity|].
  split; [destruct (en_validate_req mi1 t_a1) as [[]|]; [reflexivity|discriminate]|]. split; [exact E|].
  split; [destruct (en_validate_req mi2 t_a2) as [[]|]; [reflexivity|discriminate]|]. split; [exact G|].
  split; [apply Z.eqb_eq; exact H3|]. destruct (ec_points c3); [reflexivity|discriminate].
Qed.
Lemma t_run : t_check t_r1 (t_then t_r1 t_f1) (t_then (t_then t_r1 t_f1) t_f2) = true.
Proof. vm_compute. reflexivity. Qed.

Theorem C14_stranded_refuted :
  clusters w_km /\ mutually_nondominated t_front /\ Forall (fun r => vle t_ideal r /\ vle r t_nadir) t_front /\
  en_validate_init (ed0 3 9) = Ok tt /\
  exists s1 mi1 c1 s2 mi2 c2 s3 mi3 c3,
    en_iterate w_km (en_start t_s0) (Some (ed0 3 9)) t_s0 = (s1, Ok (EReq mi1 c1)) /\
    en_validate_req mi1 t_a1 = Ok tt /\
    en_iterate w_km (EReq mi1 c1) (Some t_a1) s1 = (s2, Ok (EReq mi2 c2)) /\
    en_validate_req mi2 t_a2 = Ok tt /\
    en_iterate w_km (EReq mi2 c2) (Some t_a2) s2 = (s3, Ok (EReq mi3 c3)) /\
    ec_left c3 = 1%Z /\ ec_points c3 = [] /\
    forall km d, d_step_back d = Some false -> exists e, snd (en_iterate km (EReq mi3 c3) (Some d) s3) = Raise e.
Proof.
  split; [exact w_clusters|]. split; [apply (@mndb_ok F64); vm_compute; reflexivity|].
  split; [repeat constructor|]. split; [reflexivity|].
  destruct (t_extract t_r1 t_f1 t_f2 t_run) as (s1 & mi1 & c1 & s2 & mi2 & c2 & s3 & mi3 & c3 & E1 & V1 & E2 & V2 & E3 & L3 & P3).
  exists s1, mi1, c1, s2, mi2, c2, s3, mi3, c3. repeat (split; [assumption|]). intros km d Hd. apply no_points_raises; auto.
Qed.
Print Assumptions C14_stranded_refuted.

(** Four objectives: choosing one of the points shown first raises a ValueError, because
    the bounds of the next points cannot be computed (no row of the front satisfies the
    constraints for one of them). *)
Definition f_front : list (list F64) := [[3;11;10;10]; [5;7;2;8]; [12;6;1;5]; [8;3;11;8]; [11;3;6;5]; [2;7;7;11]].
Definition f_ideal : list F64 := [2;3;1;5].
Definition f_nadir : list F64 := [12;11;11;11].
Definition f_s0 := en_init f_front f_ideal f_nadir None.
Definition f_a1 : en_dict F64 := edi 4 false None.
Definition f_f1 (q : en_request F64) (s : en_state F64) := en_iterate w_km q (Some f_a1) s.
Definition f_r1 := en_iterate w_km (en_start f_s0) (Some (ed0 3 9)) f_s0.
Definition f_check (r1 r2 : en_state F64 * res (en_request F64)) : bool :=
  match r1, r2 with
  | (_, Ok (EReq mi1 c1)), (_, Raise ValueErr) => t_valid (EReq mi1 c1) f_a1
  | _, _ => false
  end.
Lemma f_extract r1 f : f_check r1 (t_then r1 f) = true ->
  exists s1 mi1 c1, r1 = (s1, Ok (EReq mi1 c1)) /\ en_validate_req mi1 f_a1 = Ok tt /\ snd (f (EReq mi1 c1) s1) = Raise ValueErr.
Proof.
  unfold f_check. destruct r1 as [s1 [[|mi1 c1|]|]]; try discriminate. cbn [t_then].
  destruct (f (EReq mi1 c1) s1) as [s2 [|[]]] eqn:E; try discriminate.
  unfold t_valid. intros H. exists s1, mi1, c1. split; [reflexivity|].
  split; [destruct (en_validate_req mi1 f_a1) as [[]|]; [reflexivity|discriminate]|]. rewrite E. reflexivity.
Qed.
Lemma f_run : f_check f_r1 (t_then f_r1 f_f1) = true.
Proof. vm_compute. reflexivity. Qed.

Theorem C14_answer_raises_refuted :
  clusters w_km /\ mutually_nondominated f_front /\ Forall (fun r => vle f_ideal r /\ vle r f_nadir) f_front /\
  en_validate_init (ed0 3 9) = Ok tt /\
  exists s1 mi1 c1,
    en_iterate w_km (en_start f_s0) (Some (ed0 3 9)) f_s0 = (s1, Ok (EReq mi1 c1)) /\
    en_validate_req mi1 f_a1 = Ok tt /\
    snd (en_iterate w_km (EReq mi1 c1) (Some f_a1) s1) = Raise ValueErr.
Proof.
  split; [exact w_clusters|]. split; [apply (@mndb_ok F64); vm_compute; reflexivity|].
  split; [repeat constructor|]. split; [reflexivity|].
  exact (f_extract f_r1 f_f1 f_run).
Qed.
Print Assumptions C14_answer_raises_refuted.

(** ** The hypotheses of the positive statements are met, with three objectives *)
Definition u_front : list (list F64) := [[0;0;9]; [1;1;8]; [9;8;1]; [8;9;0]].
Definition u_nadir : list F64 := [9;9;9].
Definition u_ideal : list F64 := [0;0;0].
Definition u_s0 := en_init u_front u_ideal u_nadir None.
Definition u_r1 := en_iterate w_km (en_start u_s0) (Some (ed0 2 9)) u_s0.
Definition u_a : en_dict F64 := edi 0 false None.
Definition u_betweenb (F : list (list F64)) (n : Z) (y : list F64) : bool :=
  forallb (fun z => implb (w_vleb z y) (w_vleb z (towards n y z) && w_vleb (towards n y z) y)) F.
Lemma u_betweenb_spec F n y : u_betweenb F n y = true -> stays_between F n y.
Proof.
  intros H z Hz Hle. unfold u_betweenb in H. rewrite forallb_forall in H. specialize (H z Hz).
  apply w_vleb_spec in Hle. rewrite Hle in H. apply andb_prop in H as [A B]. split; apply w_vleb_spec; assumption.
Qed.
Definition u_check (r : en_state F64 * res (en_request F64)) : bool :=
  match r with
  | (_, Ok (EReq _ c)) => (ec_left c =? 2)%Z &&
      match ec_points c, ec_lb c, ec_ub c with y :: _, l :: _, u :: _ => w_vleb l y && w_vleb u y && u_betweenb u_front 1 y | _, _, _ => false end
  | _ => false
  end.
Lemma u_extract r : u_check r = true ->
  exists s mi c y l u, r = (s, Ok (EReq mi c)) /\ ec_left c = 2%Z /\
    nth_error (ec_points c) 0 = Some y /\ nth_error (ec_lb c) 0 = Some l /\ nth_error (ec_ub c) 0 = Some u /\
    vle l y /\ vle u y /\ stays_between u_front 1 y.
Proof.
  destruct r as [s [[|mi c|]|]]; cbn [u_check]; try discriminate. intros H. apply andb_prop in H as [A B].
  destruct (ec_points c) as [|y pts] eqn:E1; [discriminate|]. destruct (ec_lb c) as [|l lbs] eqn:E2; [discriminate|].
  destruct (ec_ub c) as [|u ubs] eqn:E3; [discriminate|]. apply andb_prop in B as [B B3]. apply andb_prop in B as [B1 B2].
  exists s, mi, c, y, l, u. rewrite E1, E2, E3. split; [reflexivity|]. split; [apply Z.eqb_eq; exact A|].
  split; [reflexivity|]. split; [reflexivity|]. split; [reflexivity|]. split; [apply w_vleb_spec; exact B1|].
  split; [apply w_vleb_spec; exact B2|]. apply u_betweenb_spec. exact B3.
Qed.
Example C14_hypotheses_met :
  is_matrix 3 u_front /\ nan_free_m u_front /\ mutually_nondominated u_front /\ clusters w_km /\
  exists s mi c y lb ub, forward_session u_front u_ideal u_nadir None s (EReq mi c) /\ (1 < ec_left c)%Z /\
    moves_to c u_a y 1 /\ chosen_bounds c u_a lb ub /\ vle lb y /\ vle ub y /\ stays_between u_front 1 y.
Proof.
  split; [repeat constructor|]. split; [repeat constructor|]. split; [apply (@mndb_ok F64); vm_compute; reflexivity|]. split; [exact w_clusters|].
  assert (B : u_check u_r1 = true) by (vm_compute; reflexivity).
  destruct (u_extract u_r1 B) as (s & mi & c & y & l & u & E & L & P1 & P2 & P3 & V1 & V2 & S).
  exists s, mi, c, y, l, u. split; [eapply forward_init; [|exact E]; reflexivity|]. rewrite L. split; [reflexivity|].
  split; [|split; [exists 0%Z; auto|auto]].
  split; [reflexivity|]. split; [exists 0%Z; repeat split; [discriminate|exact P1]|]. left. rewrite L. split; reflexivity.
Qed.
