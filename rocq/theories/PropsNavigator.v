(** * Properties of NAUTILUS Navigator (C16-C28, C63, C64).
    [nv_reach asf front ideal nadir vars s qs]: the method object is in state [s]
    after some history in which the requests [qs] were issued; every issued
    request may be answered again, with any response its validator accepts,
    and answers that fail are part of the history.  [asf] is the scalarizing
    function; [setup] is what the constructor asks for (SNavigator.v). *)
From Coq Require Import ZArith List Bool Lia Reals Lra Floats.
From Verif Require Import Num NumXR NumF64 Py Np Spec NpFacts XRFacts MNavigator SNavigator PENautilus PNavigator PNavigator2 PNavigator3 PNavigator4 PNavigator5 PNavigator6 PNavigator7 PNavigator8.
Import ListNotations.

(** ** C16: counters *)
Theorem C16_counters :
  forall (N : NumOps) (L : OrdLaws N) k (asf : @asf_fn N) front ideal nadir vars s qs,
  setup k front ideal nadir vars -> nv_reach asf front ideal nadir vars s qs ->
  (ns_step s + ns_left s = 101 /\ 1 <= ns_left s <= 100)%Z /\
  forall c, In (NReq c) qs -> (nc_step c + nc_left c = 101 /\ 1 <= nc_left c <= 100)%Z.
Proof. exact @counters. Qed.
Print Assumptions C16_counters.

Theorem C16_forward_counts_down :
  forall (N : NumOps) (L : OrdLaws N) k (asf : @asf_fn N) front ideal nadir vars s qs c d s' c',
  setup k front ideal nadir vars -> nv_reach asf front ideal nadir vars s qs -> In (NReq c) qs ->
  nv_validate c d = Ok tt -> forward d -> nv_iterate asf (NReq c) (Some d) s = (s', Ok (NReq c')) ->
  nc_left c' = (if (ns_left s =? 1)%Z then 1 else ns_left s - 1)%Z /\
  nc_step c' = (if (ns_left s =? 1)%Z then 100 else ns_step s + 1)%Z.
Proof. exact @forward_counters. Qed.
Print Assumptions C16_forward_counts_down.

Theorem C16_no_division_by_zero :
  forall (N : NumOps) (L : OrdLaws N) k (asf : @asf_fn N) front ideal nadir vars s qs c d s' out,
  setup k front ideal nadir vars -> nv_reach asf front ideal nadir vars s qs -> In (NReq c) qs ->
  nv_validate c d = Ok tt -> nv_iterate asf (NReq c) (Some d) s = (s', out) -> out <> Raise ZeroDivErr.
Proof.
  intros N L k asf front ideal nadir vars s qs c d s' out Hs Hr Hin Hv Hi ->.
  destruct (only_value_error L _ _ _ _ _ _ _ _ _ _ _ _ Hs Hr Hin Hv Hi) as [E _]. discriminate E.
Qed.
Print Assumptions C16_no_division_by_zero.

(** The hypotheses of the C16-C28 theorems are met by sessions of any length
    [t] on the front (0,2),(1,1),(2,0), ideal (0,0), nadir (2,2), with the
    scalarizing function of the point method and exact arithmetic. *)
Example C16_hypotheses_met : forall t, exists s c s' c' qs,
  setup (N:=XR) 2 (xm nF) (xv nid) (xv nnd) (Some nV) /\ enclosed (xm nF) (xv nid) (xv nnd) /\ mutually_nondominated (xm nF) /\
  nv_session pm_asf (xm nF) (xv nid) (xv nnd) (Some nV) (repeat ndict t) s c /\
  nv_reach pm_asf (xm nF) (xv nid) (xv nnd) (Some nV) s qs /\ In (NReq c) qs /\
  proper_asf pm_asf (xm nF) (xv nid) (xv nnd) (xv nq) /\ nd_ref ndict = Some (xv nq) /\
  nv_validate c ndict = Ok tt /\ forward ndict /\ nv_iterate pm_asf (NReq c) (Some ndict) s = (s', Ok (NReq c')).
Proof.
  intros t. destruct (nv_demo_next t) as (s & c & s' & c' & H1 & H2 & H3).
  destruct (session_reach XR_ord _ _ _ _ _ _ _ _ _ nF_setup H1) as (_ & qs & H4 & H5).
  exists s, c, s', c', qs. pose proof nF_setup. pose proof nF_enclosed. pose proof nF_mnd.
  repeat (split; [solve [auto | apply nF_proper; reflexivity]|]). split; [split; reflexivity|]. auto.
Qed.

(** The first request: step 1 of 100, no distance covered, the nadir as navigation point,
    the whole box and every solution reachable, no user bounds and no speed. *)
Theorem C16_first_request :
  forall (N : NumOps) (front : list (list N)) ideal nadir vars, exists c,
  nv_start (nv_init front ideal nadir vars) = NReq c /\ nc_step c = 1%Z /\ nc_left c = 100%Z /\ nc_dist c = nofZ 0 /\
  nc_nav c = nadir /\ nc_lb c = ideal /\ nc_ub c = nadir /\ nc_ideal c = ideal /\ nc_nadir c = nadir /\
  (forall i, In i (idx_list (nc_idx c)) <-> i < length front) /\ nc_bounds c = map (fun _ => nnan) ideal /\ nc_speed c = None.
Proof.
  intros N front ideal nadir vars. eexists. split; [reflexivity|]. repeat (split; [reflexivity|]). split; [|split; reflexivity].
  intros i. cbn [nv_init ns_idx nc_idx idx_list]. rewrite in_seq. lia.
Qed.
Print Assumptions C16_first_request.

(** ** C17: the navigation point moves on the segment to a front row *)
Theorem C17_navigation_point :
  forall k (asf : @asf_fn XR) (F : list (list R)) ideal (nd : list R) vars s qs c d s' c',
  setup k (xm F) ideal (xv nd) vars -> nv_reach asf (xm F) ideal (xv nd) vars s qs -> In (NReq c) qs ->
  nv_validate c d = Ok tt -> forward d -> nv_iterate asf (NReq c) (Some d) s = (s', Ok (NReq c')) ->
  exists v i p, ns_nav s = xv v /\ length v = k /\ ns_proj s' = Some i /\ nth_error F i = Some p /\ length p = k /\
    nc_nav c' = xv (rcomb (IZR (ns_left s - 1) / IZR (ns_left s)) v (1 / IZR (ns_left s)) p) /\
    (forall j x y, nth_error v j = Some x -> nth_error p j = Some y ->
       exists z, nth_error (nc_nav c') j = Some (Fin z : XR) /\ (Rmin x y <= z <= Rmax x y)%R) /\
    (ns_left s = 1%Z -> nc_nav c' = xv p).
Proof.
  intros k asf F ideal nd vars s qs c d s' c' Hs Hr Hin Hv Hf Hi.
  destruct (reach_forward XR_ord _ _ _ _ _ _ _ _ _ _ _ _ Hs Hr Hin Hv Hf Hi) as (G & Hq & ref & speed & ub & _ & _ & _ & _ & Hsp).
  destruct (nav_fin_reach _ _ _ _ _ _ _ _ Hs Hr) as [(v & Hn & Hl) _].
  destruct (forward_nav k asf F s ref speed (to_floats ub) s' _ v (g_wf _ _ _ _ _ _ _ G) (g_front _ _ _ _ _ _ _ G) Hn Hsp) as (pi & p & H1 & H2 & H3 & H4).
  destruct (wf_count _ _ (g_wf _ _ _ _ _ _ _ G)) as [_ Hc].
  unfold nv_request_of in Hq. injection Hq as <-. cbn [nc_nav].
  exists v, pi, p. split; auto. split; auto. split; auto. split; auto. split; auto. split; auto.
  assert (Hr1 : (1 <= IZR (ns_left s))%R) by (apply IZR_le; lia).
  split.
  - intros j x y Hx Hy. rewrite H4. exists (IZR (ns_left s - 1) / IZR (ns_left s) * x + 1 / IZR (ns_left s) * y)%R. split.
    + unfold xv. rewrite nth_error_map. rewrite (rcomb_nth _ _ _ _ _ _ _ Hx Hy). reflexivity.
    + set (r := IZR (ns_left s)) in *. rewrite minus_IZR. fold r.
      assert (Hi' : (0 < 1 / r <= 1)%R).
      { split; [apply Rdiv_lt_0_compat; lra|]. apply (Rmult_le_reg_r r); [lra|]. unfold Rdiv. rewrite Rmult_assoc, Rinv_l; lra. }
      replace ((r - 1) / r * x + 1 / r * y)%R with ((1 - 1 / r) * x + (1 / r) * y)%R by (field; lra).
      set (t := (1 / r)%R) in *. unfold Rmin, Rmax. destruct (Rle_dec x y); split; nra.
  - intros E. rewrite H4, E. change (1 - 1)%Z with 0%Z. f_equal.
    replace (0 / 1)%R with 0%R by lra. replace (1 / 1)%R with 1%R by lra. apply rcomb_1_0. congruence.
Qed.
Print Assumptions C17_navigation_point.

(** ** C18: constant preference
    [ds] are the answers, all forward with reference point [q], each given to the
    latest request; after [t] of them the navigation point has covered [t] of
    100 equal parts of the way (all of it from 100 on). *)
Theorem C18_constant_preference :
  forall k (asf : @asf_fn XR) (F : list (list R)) ideal (nd : list R) vars (q : list R) ds s c,
  setup k (xm F) ideal (xv nd) vars -> proper_asf asf (xm F) ideal (xv nd) (xv q) ->
  nv_session asf (xm F) ideal (xv nd) vars ds s c ->
  Forall (fun d => forward d /\ nd_ref d = Some (xv q)) ds -> ds <> [] ->
  exists i p, best_projection asf (xm F) ideal (xv nd) (xv q) (IList (seq 0 (length F))) (map (fun _ => XNan) ideal) i /\
    nth_error F i = Some p /\
    let t := INR (Nat.min (length ds) 100) in
    nc_nav c = xv (rcomb (1 - t / 100) nd (t / 100) p) /\
    (p <> nd -> nc_dist c = (Fin t : XR)) /\
    (100 <= length ds -> nc_nav c = xv p).
Proof.
  intros k asf F ideal nd vars q ds s c Hs Hp Hn Hd Hne.
  destruct (constant_session k asf F ideal nd vars q ds s c Hs Hn Hd Hne) as (i & p & H1 & H2 & H3 & _ & _ & _ & H4 & H5).
  destruct (session_reach XR_ord _ _ _ _ _ _ _ _ _ Hs Hn) as (Hq & _).
  pose proof (projection_best XR_ord k asf _ _ _ (wf_init _ _ _ _ _ Hs) Hp H1) as Hb.
  exists i, p. split; [replace (length F) with (length (xm F)) by apply map_length; exact Hb|]. split; auto. cbn zeta. unfold nv_request_of in Hq. injection Hq as <-. cbn [nc_nav nc_dist].
  split; [exact H4|]. split; [exact H5|]. intros H. rewrite H4. unfold cap. rewrite Nat.min_r by auto. f_equal.
  replace (INR 100) with 100%R by (cbn; lra). replace (1 - 100 / 100)%R with 0%R by lra. replace (100 / 100)%R with 1%R by lra.
  apply rcomb_1_0. destruct Hs as (_ & _ & Hl & _). unfold xv in Hl. rewrite map_length in Hl. congruence.
Qed.
Print Assumptions C18_constant_preference.

(** Such sessions exist for every number of answers. *)
Theorem C18_constant_preference_never_fails :
  forall k (asf : @asf_fn XR) (F : list (list R)) ideal (nd : list R) vars (q : list R) d t,
  setup k (xm F) ideal (xv nd) vars -> F <> [] -> proper_asf asf (xm F) ideal (xv nd) (xv q) ->
  forward d -> nd_ref d = Some (xv q) ->
  (forall c, nv_start (nv_init (xm F) ideal (xv nd) vars) = NReq c -> nv_validate c d = Ok tt) ->
  exists s c, nv_session asf (xm F) ideal (xv nd) vars (repeat d t) s c.
Proof.
  intros k asf F ideal nd vars q d t Hs Hne Hp Hf Hd Hv.
  destruct (repeat_session XR_ord k asf (xm F) ideal (xv nd) vars d (xv q) t Hs) as (s & c & H & _); eauto.
  - destruct F; [congruence|discriminate].
  - apply allclose_refl.
Qed.
Print Assumptions C18_constant_preference_never_fails.

(** ** C19: bounds shrink, reachable sets are nested.  At least two objectives;
    the front lies inside [ideal, nadir]. *)
Theorem C19_bounds_shrink :
  forall (N : NumOps) (L : OrdLaws N) k (asf : @asf_fn N) front ideal nadir vars s qs c d s' c',
  2 <= k -> setup k front ideal nadir vars -> enclosed front ideal nadir ->
  nv_reach asf front ideal nadir vars s qs -> In (NReq c) qs ->
  nv_validate c d = Ok tt -> forward d -> nv_iterate asf (NReq c) (Some d) s = (s', Ok (NReq c')) ->
  vle (ns_lb s) (nc_lb c') /\ vle (nc_ub c') (ns_ub s) /\ incl (idx_list (nc_idx c')) (idx_list (ns_idx s)).
Proof.
  intros N L k asf front ideal nadir vars s qs c d s' c' Hk Hs He Hr Hin Hv Hf Hi.
  destruct (forward_bounds L _ _ _ _ _ _ _ _ _ _ _ _ Hk Hs He Hr Hin Hv Hf Hi) as (H1 & H2 & H3 & _). auto.
Qed.
Print Assumptions C19_bounds_shrink.

Theorem C19_bounds_shrink_ieee_doubles :
  forall k (asf : @asf_fn F64) front ideal nadir vars s qs c d s' c',
  2 <= k -> setup k front ideal nadir vars -> enclosed front ideal nadir ->
  nv_reach asf front ideal nadir vars s qs -> In (NReq c) qs ->
  nv_validate c d = Ok tt -> forward d -> nv_iterate asf (NReq c) (Some d) s = (s', Ok (NReq c')) ->
  vle (ns_lb s) (nc_lb c') /\ vle (nc_ub c') (ns_ub s) /\ incl (idx_list (nc_idx c')) (idx_list (ns_idx s)).
Proof. exact (C19_bounds_shrink F64 F64_ord). Qed.
Print Assumptions C19_bounds_shrink_ieee_doubles.

(** ** C20: the reachable indices are the box filter *)
Theorem C20_forward_reachable_indices :
  forall (N : NumOps) (L : OrdLaws N) k (asf : @asf_fn N) front ideal nadir vars s qs c d s' c',
  setup k front ideal nadir vars -> nv_reach asf front ideal nadir vars s qs -> In (NReq c) qs ->
  nv_validate c d = Ok tt -> forward d -> nv_iterate asf (NReq c) (Some d) s = (s', Ok (NReq c')) ->
  increasing (idx_list (nc_idx c')) /\
  forall i, In i (idx_list (nc_idx c')) <-> exists row, nth_error front i = Some row /\ in_box row (nc_lb c') (nc_ub c').
Proof. exact @forward_reachable. Qed.
Print Assumptions C20_forward_reachable_indices.

Theorem C20_every_request :
  forall (N : NumOps) (L : OrdLaws N) k (asf : @asf_fn N) front ideal nadir vars s qs c,
  2 <= k -> setup k front ideal nadir vars -> enclosed front ideal nadir ->
  nv_reach asf front ideal nadir vars s qs -> In (NReq c) qs ->
  increasing (idx_list (nc_idx c)) /\
  forall i, In i (idx_list (nc_idx c)) <-> exists row, nth_error front i = Some row /\ in_box row (nc_lb c) (nc_ub c).
Proof. exact @issued_reachable. Qed.
Print Assumptions C20_every_request.

(** ** C21: going back
    Everything shown in the earlier request comes back, except the speed (the
    method's current one) and the user bounds (those of the answer). *)
Theorem C21_back_restores_partial :
  forall (N : NumOps) (L : OrdLaws N) k (asf : @asf_fn N) front ideal nadir vars s qs c d s' out,
  setup k front ideal nadir vars -> nv_reach asf front ideal nadir vars s qs -> In (NReq c) qs ->
  nv_validate c d = Ok tt -> nd_prev d = Some (VBool true) -> nd_stop d = Some (VBool false) ->
  nv_iterate asf (NReq c) (Some d) s = (s', out) ->
  exists ub, nd_bounds d = Some ub /\
    out = Ok (NReq (MkNC (nc_ideal c) (nc_nadir c) (nc_lb c) (nc_ub c) (to_floats ub) (nc_idx c) (nc_step c) (nc_left c) (nc_dist c)
                         (ns_speed s) (nc_nav c))) /\
    s' = MkNS (ns_front s) (nc_ideal c) (nc_nadir c) (ns_vars s) (nc_lb c) (nc_ub c) (to_floats ub) (nc_idx c) (nc_step c)
              (nc_left c) (nc_dist c) (ns_speed s) (ns_ref s) (nc_nav c) (ns_proj s).
Proof. exact @back_restores. Qed.
Print Assumptions C21_back_restores_partial.

(** [fresh c s ref]: an answer with reference point [ref] projects it anew. *)
Definition fresh {N : NumOps} (s : nv_state N) (ref : list N) : Prop :=
  ns_step s = 1%Z \/ exists r0, ns_ref s = Some r0 /\ allclose ref r0 = Ok false.

(** [s] is the state in which [c] was issued; [s2] a later one, from which the
    user goes back to [c] with the bounds shown there.  The same forward answer
    [d] then gives the same request (speed aside), provided it projects anew in
    both.  Missing: answers which reuse the last projection. *)
Theorem C21_forward_after_back_partial :
  forall (N : NumOps) (L : OrdLaws N) k (asf : @asf_fn N) front ideal nadir vars s qs c s2 qs2 db ub s3 cr d ref s1' c1 s3' c3,
  setup k front ideal nadir vars ->
  nv_reach asf front ideal nadir vars s qs -> In (NReq c) qs -> nv_request_of s = NReq c ->
  nv_reach asf front ideal nadir vars s2 qs2 -> In (NReq c) qs2 ->
  nv_validate c db = Ok tt -> nd_prev db = Some (VBool true) -> nd_stop db = Some (VBool false) ->
  nd_bounds db = Some ub -> to_floats ub = nc_bounds c ->
  nv_iterate asf (NReq c) (Some db) s2 = (s3, Ok (NReq cr)) ->
  forward d -> nd_ref d = Some ref -> nv_validate c d = Ok tt -> nv_validate cr d = Ok tt ->
  fresh s ref -> fresh s3 ref ->
  nv_iterate asf (NReq c) (Some d) s = (s1', Ok (NReq c1)) ->
  nv_iterate asf (NReq cr) (Some d) s3 = (s3', Ok (NReq c3)) ->
  nc_nav c1 = nc_nav c3 /\ nc_lb c1 = nc_lb c3 /\ nc_ub c1 = nc_ub c3 /\ nc_bounds c1 = nc_bounds c3 /\ nc_idx c1 = nc_idx c3 /\
  nc_step c1 = nc_step c3 /\ nc_left c1 = nc_left c3 /\ nc_dist c1 = nc_dist c3 /\ ns_proj s1' = ns_proj s3'.
Proof.
  intros N L k asf front ideal nadir vars s qs c s2 qs2 db ub s3 cr d ref s1' c1 s3' c3
    Hs Hr Hin Hq Hr2 Hin2 Hvb Hp Hst Hub Hbd Hib Hf Hd Hv Hv3 Hfr Hfr3 Hi1 Hi3.
  destruct (back_restores L _ _ _ _ _ _ _ _ _ _ _ _ Hs Hr2 Hin2 Hvb Hp Hst Hib) as (ub' & Hub' & Hout & Hs3).
  rewrite Hub in Hub'. injection Hub' as <-.
  pose proof (nv_reach_step _ _ _ _ _ _ _ _ _ _ _ Hr2 Hin2 Hvb Hib) as Hr3. cbn beta iota in Hr3.
  destruct (reach_forward L _ _ _ _ _ _ _ _ _ _ _ _ Hs Hr Hin Hv Hf Hi1) as (G1 & Q1 & ref1 & sp1 & ub1 & A1 & _ & A3 & _ & S1).
  destruct (reach_forward L _ _ _ _ _ _ _ _ _ _ _ _ Hs Hr3 (or_introl eq_refl) Hv3 Hf Hi3) as (G3 & Q3 & ref3 & sp3 & ub3 & B1 & _ & B3 & _ & S3).
  rewrite Hd in A1, B1. injection A1 as <-. injection B1 as <-. rewrite A3 in B3. injection B3 as <-.
  assert (Hfresh : forall s0, fresh s0 ref -> reprojects s0 ref true).
  { intros s0 [E|(r0 & E1 & E2)]; [left; auto|]. destruct (Z.eq_dec (ns_step s0) 1); [left; auto|right; split; auto; exists r0, false; auto]. }
  assert (Hsame : nv_request_of (w_speed None s) = nv_request_of (w_speed None s3)).
  { subst s3. unfold nv_request_of in Hq. injection Hq as <-. unfold nv_request_of. cbn. rewrite Hbd. reflexivity. }
  destruct (forward_det asf s s3 ref sp1 sp3 (to_floats ub1) s1' s3' _ _ (eq_trans (g_front _ _ _ _ _ _ _ G1) (eq_sym (g_front _ _ _ _ _ _ _ G3)))
              Hsame (Hfresh _ Hfr) (Hfresh _ Hfr3) S1 S3) as [E1 E2].
  unfold nv_request_of in Q1, Q3, E1. injection Q1 as <-. injection Q3 as <-. injection E1 as. cbn in *. repeat split; auto.
Qed.
Print Assumptions C21_forward_after_back_partial.

(** Without that proviso it is false: the projection of a later answer is reused.
    From the same request, the answer [gB] given at once and [gB] given after
    [gA'], [gB], and going back (with the same bounds) move to different points. *)
Theorem C21_same_as_before_refuted : exists s qs c c1 s1' sa ca s2 cb s3 cr s4 c2,
  nv_reach (N:=F64) pm_asf gF gid gnd None s qs /\ nth_error qs 0 = Some (NReq c) /\
  nv_validate c gB = Ok tt /\ nv_iterate pm_asf (NReq c) (Some gB) s = (s1', Ok (NReq c1)) /\
  nv_validate c gA' = Ok tt /\ nv_iterate pm_asf (NReq c) (Some gA') s = (sa, Ok (NReq ca)) /\
  nv_validate ca gB = Ok tt /\ nv_iterate pm_asf (NReq ca) (Some gB) sa = (s2, Ok (NReq cb)) /\
  nv_validate c gback = Ok tt /\ nv_iterate pm_asf (NReq c) (Some gback) s2 = (s3, Ok (NReq cr)) /\
  nv_validate cr gB = Ok tt /\ nv_iterate pm_asf (NReq cr) (Some gB) s3 = (s4, Ok (NReq c2)) /\
  nc_nav c1 <> nc_nav c2.
Proof. exact back_refuted. Qed.
Print Assumptions C21_same_as_before_refuted.

(** ** C22: validation.  For a reference point of the right length: *)
Theorem C22_accepts_exactly_partial :
  forall (N : NumOps) (c : nv_content N) d k, length (nc_ideal c) = k -> length (nc_nadir c) = k ->
  (forall ref, nd_ref d = Some ref -> length ref = k) ->
  (nv_validate c d = Ok tt <->
   exists ref speed z b ub b', d = MkND (Some ref) (Some speed) (Some (VBool b)) (Some ub) (Some (VBool b')) /\
     (forall i x lo hi, nth_error ref i = Some x -> nth_error (nc_ideal c) i = Some lo -> nth_error (nc_nadir c) i = Some hi ->
        nltb x lo = false /\ nltb hi x = false) /\
     py_int speed = Some z /\ (1 <= z <= 5)%Z /\ length ub = k).
Proof.
  intros N c d k Hi Hn Hl. rewrite (validate_iff c d k Hi Hn). split.
  - intros (ref & speed & z & b & ub & b' & -> & H1 & H2 & H3 & H4 & H5). specialize (Hl _ eq_refl).
    exists ref, speed, z, b, ub, b'. split; auto. split; auto. intros i x lo hi Hx Hlo Hhi.
    split; [eapply (proj1 (bany_false nltb ref (nc_ideal c) ltac:(congruence)) H4); eauto
           |eapply (proj1 (bany_false (fun x y => nltb y x) ref (nc_nadir c) ltac:(congruence)) H5); eauto].
  - intros (ref & speed & z & b & ub & b' & -> & H1 & H2 & H3 & H4). specialize (Hl _ eq_refl).
    exists ref, speed, z, b, ub, b'. split; auto. split; auto. split; auto. split; auto. split.
    + apply bany_false; [congruence|]. intros i x lo Hx Hlo.
      destruct (nth_error (nc_nadir c) i) as [hi|] eqn:Hhi; [apply (H1 i x lo hi); auto|].
      apply nth_error_None in Hhi. assert (i < length ref) by (apply nth_error_Some; congruence). lia.
    + apply bany_false; [congruence|]. intros i x hi Hx Hhi.
      destruct (nth_error (nc_ideal c) i) as [lo|] eqn:Hlo; [apply (H1 i x lo hi); auto|].
      apply nth_error_None in Hlo. assert (i < length ref) by (apply nth_error_Some; congruence). lia.
Qed.
Print Assumptions C22_accepts_exactly_partial.

(** Other lengths are rejected, except one (numpy broadcasts it). *)
Theorem C22_wrong_length_rejected_partial :
  forall (N : NumOps) (c : nv_content N) d ref, length (nc_ideal c) = length (nc_nadir c) -> length (nc_ideal c) <> 1 ->
  nd_ref d = Some ref -> length ref <> length (nc_ideal c) -> length ref <> 1 -> nv_validate c d = Raise MethodExn.
Proof.
  intros N c d ref He H1 Hd Hl Hl1. unfold nv_validate. rewrite Hd. rewrite bany_wrong by auto.
  destruct (nd_speed d), (nd_prev d), (nd_bounds d), (nd_stop d); reflexivity.
Qed.
Print Assumptions C22_wrong_length_rejected_partial.

(** A rejection is a NautilusNavigatorException, except for flags that are not
    booleans, where the code raises a string, that is a TypeError. *)
Theorem C22_rejection_partial :
  forall (N : NumOps) (c : nv_content N) d e, nv_validate c d = Raise e ->
  e = MethodExn \/ (e = TypeErr /\
    ((exists v, nd_prev d = Some v /\ forall b, v <> VBool b) \/ (exists v, nd_stop d = Some v /\ forall b, v <> VBool b))).
Proof. exact @validate_exn. Qed.
Print Assumptions C22_rejection_partial.

(** Accepted although not documented: a NaN, one number instead of two, a speed
    of 5.5 or the string "3"; and a flag 1 is a TypeError. *)
Theorem C22_validation_refuted :
  nv_validate vcont (vresp [nan; 1]%float (VInt 3) (VBool false) (VBool false)) = Ok tt /\
  nv_validate vcont (vresp [1]%float (VInt 3) (VBool false) (VBool false)) = Ok tt /\
  nv_validate vcont (vresp [1; 1]%float (VFloat (N:=F64) 5.5%float (Some 5%Z)) (VBool false) (VBool false)) = Ok tt /\
  nv_validate vcont (vresp [1; 1]%float (VStr (Some 3%Z)) (VBool false) (VBool false)) = Ok tt /\
  nv_validate vcont (vresp [1; 1]%float (VInt 3) (VInt 1) (VBool false)) = Raise TypeErr.
Proof.
  split; [exact validate_nan|]. split; [exact validate_short|]. split; [exact validate_speed_float|].
  split; [exact validate_speed_str|exact validate_flag].
Qed.
Print Assumptions C22_validation_refuted.

(** ** C23: user bounds
    A projection computed in an answer satisfies the bounds of the answer before
    it, not those of the answer itself. *)
Theorem C23_previous_bounds_partial :
  forall (N : NumOps) (L : OrdLaws N) k (asf : @asf_fn N) front ideal nadir vars s qs c d ref s' c',
  setup k front ideal nadir vars -> nv_reach asf front ideal nadir vars s qs -> In (NReq c) qs ->
  nv_validate c d = Ok tt -> forward d -> nd_ref d = Some ref -> proper_asf asf front ideal nadir ref -> fresh s ref ->
  nv_iterate asf (NReq c) (Some d) s = (s', Ok (NReq c')) ->
  exists p row, ns_proj s' = Some p /\ In p (idx_list (ns_idx s)) /\ nth_error front p = Some row /\ ~ exceeds row (ns_bounds s).
Proof.
  intros N L k asf front ideal nadir vars s qs c d ref s' c' Hs Hr Hin Hv Hf Hd Hp Hfr Hi.
  pose proof (ginv_reach L _ _ _ _ _ _ _ _ Hs Hr) as G.
  destruct (forward_proj L _ _ _ _ _ _ _ _ _ _ _ _ _ Hs Hr Hin Hv Hf Hd Hi) as (p & H1 & H2 & [(H3 & _ & _)|(Hn & _ & _ & r0 & E1 & E2)]).
  - rewrite <- (g_front _ _ _ _ _ _ _ G), <- (g_ideal _ _ _ _ _ _ _ G), <- (g_nadir _ _ _ _ _ _ _ G) in Hp.
    destruct (projection_best L k asf s ref p (g_wf _ _ _ _ _ _ _ G) Hp H3) as [[A (row & B & C)] _].
    exists p, row. rewrite <- (g_front _ _ _ _ _ _ _ G). auto.
  - destruct Hfr as [E|(r1 & E3 & E4)]; congruence.
Qed.
Print Assumptions C23_previous_bounds_partial.

(** First answer of a session with upper bound 1 on the first objective: the
    method moves towards a row that exceeds it, though another reachable row
    satisfies it. *)
Theorem C23_user_bounds_refuted :
  exists s qs c s' c' p row i row',
    nv_reach (N:=F64) pm_asf bF bid bnd None s qs /\ In (NReq c) qs /\ nv_validate c bans = Ok tt /\
    nv_iterate pm_asf (NReq c) (Some bans) s = (s', Ok (NReq c')) /\
    ns_proj s' = Some p /\ nth_error bF p = Some row /\ exceeds row (to_floats bub) /\
    In i (idx_list (ns_idx s)) /\ In i (idx_list (nc_idx c')) /\ nth_error bF i = Some row' /\ ~ exceeds row' (to_floats bub).
Proof. exact bounds_late_refuted. Qed.
Print Assumptions C23_user_bounds_refuted.

(** ** C24: the speed shown *)
Theorem C24_speed_of_first_answer_partial :
  forall (N : NumOps) (L : OrdLaws N) k (asf : @asf_fn N) front ideal nadir vars s qs c d s' c',
  setup k front ideal nadir vars -> nv_reach asf front ideal nadir vars s qs -> In (NReq c) qs ->
  nv_validate c d = Ok tt -> forward d -> nv_iterate asf (NReq c) (Some d) s = (s', Ok (NReq c')) ->
  nc_speed c' = if (ns_step s =? 1)%Z then nd_speed d else ns_speed s.
Proof.
  intros N L k asf front ideal nadir vars s qs c d s' c' Hs Hr Hin Hv Hf Hi.
  destruct (reach_forward L _ _ _ _ _ _ _ _ _ _ _ _ Hs Hr Hin Hv Hf Hi) as (G & Q & ref & sp & ub & _ & A & _ & _ & S).
  destruct S as (again & pi & proj & nav & rows & lb & ub' & dist & idx & _ & _ & _ & _ & _ & _ & _ & _ & -> & _).
  unfold nv_request_of in Q. injection Q as <-. cbn. rewrite A. reflexivity.
Qed.
Print Assumptions C24_speed_of_first_answer_partial.

(** The second answer gives speed 5; the request shows the first one, 1. *)
Theorem C24_speed_refuted :
  exists s qs c s' c',
    nv_reach (N:=F64) pm_asf bF bid bnd None s qs /\ In (NReq c) qs /\ nv_validate c (fans 2 0 5 false none2) = Ok tt /\
    nv_iterate pm_asf (NReq c) (Some (fans 2 0 5 false none2)) s = (s', Ok (NReq c')) /\ nc_speed c' = Some (VInt 1).
Proof. exact speed_refuted. Qed.
Print Assumptions C24_speed_refuted.

(** ** C25: stopping *)
Theorem C25_stop :
  forall (N : NumOps) (L : OrdLaws N) k (asf : @asf_fn N) front ideal nadir vars s qs c d s' out,
  setup k front ideal nadir vars -> nv_reach asf front ideal nadir vars s qs -> In (NReq c) qs ->
  nv_validate c d = Ok tt -> nd_stop d = Some (VBool true) -> nv_iterate asf (NReq c) (Some d) s = (s', out) ->
  s' = s /\ exists rows decs, out = Ok (NStop rows decs (nc_idx c)) /\
    Forall2 (fun i row => nth_error front i = Some row) (idx_list (nc_idx c)) rows /\
    match vars with
    | None => decs = None
    | Some v => exists xs, decs = Some xs /\ Forall2 (fun i x => nth_error v i = Some x) (idx_list (nc_idx c)) xs
    end.
Proof.
  intros N L k asf front ideal nadir vars s qs c d s' out Hs Hr Hin Hv Hd Hi.
  pose proof (ginv_reach L _ _ _ _ _ _ _ _ Hs Hr) as G.
  pose proof (reach_outcome L _ _ _ _ _ _ _ _ _ _ _ _ Hs Hr Hin Hv Hi) as Ho.
  destruct Ho as [rows decs _ H1 H2 H3 H4|? Ha ? ? ? ? ?|? ? ? Ha ? ? ? ? ? ? ?|? ? ? Ha ? ? ? ? ? ? ? ?]; try congruence.
  split; auto. exists rows, decs. split; auto.
  assert (T : forall (m m' : list (list N)) l, take m l = Ok m' -> Forall2 (fun i row => nth_error m i = Some row) l m').
  { intros m m' l H. unfold take in H. apply rseq_map_ok in H. eapply Forall2_mono; [|exact H]. intros i row E. apply at_ok in E. exact E. }
  split; [apply T; rewrite <- (g_front _ _ _ _ _ _ _ G); auto|].
  rewrite (g_vars _ _ _ _ _ _ _ G) in H3. destruct vars as [v|]; [|auto]. destruct H3 as (w & -> & H3). exists w. split; auto.
Qed.
Print Assumptions C25_stop.

(** ** C26: the arrays given at construction are never modified *)
Theorem C26_front_unchanged :
  forall (N : NumOps) (L : OrdLaws N) k (asf : @asf_fn N) front ideal nadir vars s qs,
  setup k front ideal nadir vars -> nv_reach asf front ideal nadir vars s qs ->
  ns_front s = front /\ ns_vars s = vars /\ ns_ideal s = ideal /\ ns_nadir s = nadir.
Proof. intros N L k asf front ideal nadir vars s qs Hs Hr. pose proof (ginv_reach L _ _ _ _ _ _ _ _ Hs Hr) as []. auto. Qed.
Print Assumptions C26_front_unchanged.

(** ** C27: the projection *)
Theorem C27_projection :
  forall (N : NumOps) (L : OrdLaws N) k (asf : @asf_fn N) front ideal nadir vars s qs c d ref s' c',
  setup k front ideal nadir vars -> nv_reach asf front ideal nadir vars s qs -> In (NReq c) qs ->
  nv_validate c d = Ok tt -> forward d -> nd_ref d = Some ref -> proper_asf asf front ideal nadir ref -> fresh s ref ->
  nv_iterate asf (NReq c) (Some d) s = (s', Ok (NReq c')) ->
  exists p, ns_proj s' = Some p /\ best_projection asf front ideal nadir ref (ns_idx s) (ns_bounds s) p.
Proof.
  intros N L k asf front ideal nadir vars s qs c d ref s' c' Hs Hr Hin Hv Hf Hd Hp Hfr Hi.
  pose proof (ginv_reach L _ _ _ _ _ _ _ _ Hs Hr) as G.
  destruct (forward_proj L _ _ _ _ _ _ _ _ _ _ _ _ _ Hs Hr Hin Hv Hf Hd Hi) as (p & H1 & H2 & [(H3 & _ & _)|(Hn & _ & _ & r0 & E1 & E2)]).
  - exists p. split; auto. rewrite <- (g_front _ _ _ _ _ _ _ G), <- (g_ideal _ _ _ _ _ _ _ G), <- (g_nadir _ _ _ _ _ _ _ G) in *.
    eapply projection_best; eauto. apply (g_wf _ _ _ _ _ _ _ G).
  - destruct Hfr as [E|(r1 & E3 & E4)]; congruence.
Qed.
Print Assumptions C27_projection.

(** An answer close to the previous reference point keeps the projection. *)
Theorem C27_projection_kept :
  forall (N : NumOps) (L : OrdLaws N) k (asf : @asf_fn N) front ideal nadir vars s qs c d ref r0 s' c',
  setup k front ideal nadir vars -> nv_reach asf front ideal nadir vars s qs -> In (NReq c) qs ->
  nv_validate c d = Ok tt -> forward d -> nd_ref d = Some ref ->
  ns_step s <> 1%Z -> ns_ref s = Some r0 -> allclose ref r0 = Ok true ->
  nv_iterate asf (NReq c) (Some d) s = (s', Ok (NReq c')) -> ns_proj s' = ns_proj s.
Proof.
  intros N L k asf front ideal nadir vars s qs c d ref r0 s' c' Hs Hr Hin Hv Hf Hd H1 H2 H3 Hi.
  destruct (forward_proj L _ _ _ _ _ _ _ _ _ _ _ _ _ Hs Hr Hin Hv Hf Hd Hi) as (p & A & _ & [(_ & _ & [E|(r1 & E3 & E4)])|(_ & E & _)]); congruence.
Qed.
Print Assumptions C27_projection_kept.

Theorem C27_no_admissible_row_fails :
  forall (N : NumOps) (L : OrdLaws N) k (asf : @asf_fn N) front ideal nadir vars s qs c d ref s' out,
  setup k front ideal nadir vars -> nv_reach asf front ideal nadir vars s qs -> In (NReq c) qs ->
  nv_validate c d = Ok tt -> forward d -> nd_ref d = Some ref -> proper_asf asf front ideal nadir ref -> fresh s ref ->
  nv_iterate asf (NReq c) (Some d) s = (s', out) ->
  ((exists i, admissible front (ns_idx s) (ns_bounds s) i) -> exists c', out = Ok (NReq c')) /\
  ((forall i, ~ admissible front (ns_idx s) (ns_bounds s) i) -> out = Raise ValueErr).
Proof.
  intros N L k asf front ideal nadir vars s qs c d ref s' out Hs Hr Hin Hv Hf Hd Hp Hfr Hi.
  pose proof (ginv_reach L _ _ _ _ _ _ _ _ Hs Hr) as G. pose proof Hf as [Hf1 Hf2].
  assert (Hp' : proper_asf asf (ns_front s) (ns_ideal s) (ns_nadir s) ref) by (rewrite (g_front _ _ _ _ _ _ _ G), (g_ideal _ _ _ _ _ _ _ G), (g_nadir _ _ _ _ _ _ _ G); auto).
  pose proof (reach_outcome L _ _ _ _ _ _ _ _ _ _ _ _ Hs Hr Hin Hv Hi) as Ho.
  destruct Ho as [? ? Ha ? ? ? ?|? ? Ha ? ? ? ?|ref' sp ub _ _ A1 A2 A3 A4 A5 A6|ref' sp ub _ _ A1 A2 A3 A4 A5 A6 A7]; try congruence.
  - split; [intros _; unfold nv_request_of in A6; eauto|]. intros Hna. exfalso. subst out. unfold nv_request_of in Hi.
    destruct (C27_projection N L k asf front ideal nadir vars s qs c d ref s' _ Hs Hr Hin Hv Hf Hd Hp Hfr Hi) as (p & _ & B & _). apply (Hna _ B).
  - split; [|auto]. rewrite Hd in A1. injection A1 as <-. intros (i & Hi'). exfalso.
    destruct A5 as [r0 F1 F2 F3|bm F1 F2 F3].
    + destruct Hfr as [E|(r1 & E3 & E4)]; congruence.
    + apply (proj1 (projection_none L k asf s ref bm (g_wf _ _ _ _ _ _ _ G) Hp' F2) F3 i). rewrite (g_front _ _ _ _ _ _ _ G); auto.
Qed.
Print Assumptions C27_no_admissible_row_fails.

(** ** C28: two objectives *)
Theorem C28_two_objectives :
  forall (asf : @asf_fn XR) (F : list (list R)) ideal (nd : list R) vars ds s c,
  setup 2 (xm F) ideal (xv nd) vars -> enclosed (xm F) ideal (xv nd) -> mutually_nondominated (xm F) ->
  nv_session asf (xm F) ideal (xv nd) vars ds s c ->
  Forall (fun d => forward d /\ nd_bounds d = Some [None; None] /\
                   exists ref, nd_ref d = Some ref /\ proper_asf asf (xm F) ideal (xv nd) ref) ds ->
  (forall i row, nth_error (xm F) i = Some row -> (In i (idx_list (nc_idx c)) <-> vle row (nc_nav c))) /\
  (match ns_proj s with Some p => In p (idx_list (nc_idx c)) | None => ds = [] end).
Proof.
  intros asf F ideal nd vars ds s c Hs He Hm Hn Hd.
  destruct (session_reach XR_ord _ _ _ _ _ _ _ _ _ Hs Hn) as (Hq & _).
  destruct (two_objective_session asf F ideal nd vars ds s c Hs He Hm Hn Hd) as [H1 H2].
  unfold nv_request_of in Hq. injection Hq as <-. auto.
Qed.
Print Assumptions C28_two_objectives.

(** ** C63: an answer that fails changes nothing but (in the first step) the speed *)
Theorem C63_failed_answer :
  forall (N : NumOps) (L : OrdLaws N) k (asf : @asf_fn N) front ideal nadir vars s qs c d s' e,
  setup k front ideal nadir vars -> nv_reach asf front ideal nadir vars s qs -> In (NReq c) qs ->
  nv_validate c d = Ok tt -> nv_iterate asf (NReq c) (Some d) s = (s', Raise e) ->
  e = ValueErr /\ forward d /\
  ((ns_step s <> 1%Z /\ s' = s) \/
   (ns_step s = 1%Z /\ exists v, s' = MkNS (ns_front s) (ns_ideal s) (ns_nadir s) (ns_vars s) (ns_lb s) (ns_ub s) (ns_bounds s) (ns_idx s)
                                      (ns_step s) (ns_left s) (ns_dist s) v (ns_ref s) (ns_nav s) (ns_proj s))).
Proof. exact @only_value_error. Qed.
Print Assumptions C63_failed_answer.

(** ** C64: what the bounds are (SNavigator.bounds_are): the least and greatest
    value among the reachable rows which satisfy the user bounds and are no
    worse than the navigation point in the other objectives; the previous
    bounds when there is no such row. *)
Theorem C64_bounds :
  forall (N : NumOps) (L : OrdLaws N) k (asf : @asf_fn N) front ideal nadir vars s qs c d s' c',
  2 <= k -> setup k front ideal nadir vars -> enclosed front ideal nadir ->
  nv_reach asf front ideal nadir vars s qs -> In (NReq c) qs ->
  nv_validate c d = Ok tt -> forward d -> nv_iterate asf (NReq c) (Some d) s = (s', Ok (NReq c')) ->
  exists rows ub, Forall2 (fun i row => nth_error front i = Some row) (idx_list (ns_idx s)) rows /\ nd_bounds d = Some ub /\
    bounds_are rows (nc_nav c') (to_floats ub) (ns_lb s) (ns_ub s) (nc_lb c') (nc_ub c').
Proof.
  intros N L k asf front ideal nadir vars s qs c d s' c' Hk Hs He Hr Hin Hv Hf Hi.
  destruct (forward_bounds L _ _ _ _ _ _ _ _ _ _ _ _ Hk Hs He Hr Hin Hv Hf Hi) as (_ & _ & _ & rows & ub & H1 & H2 & H3).
  exists rows, ub. split; auto. unfold take in H1. apply rseq_map_ok in H1.
  eapply Forall2_mono; [|exact H1]. intros i row E. apply at_ok in E. exact E.
Qed.
Print Assumptions C64_bounds.
