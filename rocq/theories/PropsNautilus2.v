(** * Properties of NAUTILUS 2 (C48-C50).  See PropsNautilus.v for the vocabulary
    and for what the two methods have in common (C43_session_length, C45, C71 are
    stated there for both). *)
From Coq Require Import ZArith List Bool Lia Sorted Reals Lra Floats.
From Verif Require Import Num NumXR NumF64 Py Np Spec NpFacts XRFacts Hoare MAsf PAsf MNautilus SNautilus
  PNautilus PNautilus2 PNautilus3 PNautilus4 PNautilus5 PNautilus6 PNautilus7 PNautilus8 PropsNautilus.
Import ListNotations.

(** ** C48: directions from pairwise ratios *)
(** The direction of objective [i], counted from 1. *)
Definition dir (ds : list R) (i : nat) : R := nth (i - 1) ds 0%R.

Lemma pairs_checked {N : NumOps} k (m : pyval N) l : nt2_check k m (PPairs l) = Ok tt ->
  py_eq m 1 = false /\ py_eq m 2 = false /\ py_eq m 3 = true /\ length l = k - 1 /\ exists ms, rseq (map (nt2_pair k) l) = Ok ms.
Proof.
  unfold nt2_check. cbn [info_len rbind]. destruct (py_eq m 1) eqn:E1, (py_eq m 2) eqn:E2, (py_eq m 3) eqn:E3; cbn [orb negb]; try discriminate.
  destruct (Z.eqb_spec (Z.of_nat (length l)) (Z.of_nat k - 1)) as [E|E]; cbn [negb]; [|discriminate].
  destruct (rseq (map (nt2_pair k) l)) as [ms|e]; cbn [rbind]; [|discriminate]. intros _. repeat split; try lia. eauto.
Qed.

(** Ratios that are accepted, with two objectives per entry and every objective
    linked to the first one: the loop ends, and the directions are what was asked
    for: 1 for the first objective, positive, and delta_j = T * delta_i for every
    ((i, j), T).  The achievement function gets their inverses as weights.  The
    number of passes of the loop is at most the number of objectives. *)
Theorem C48_directions :
  forall (m : pyval XR) (l : list (list (pyval XR) * pyval XR)) k start fuel nadir ut,
  nt2_check k m (PPairs l) = Ok tt -> length nadir = k -> 0 < k ->
  Forall (fun e => length (fst e) = 2) l -> (forall e, In e l -> exists r, ratio_val (snd e) = Some (Fin r : XR)) ->
  (forall i, 1 <= i <= k -> linked l 1 i) -> k <= fuel ->
  exists ds : list R, length ds = k /\ dir ds 1 = 1%R /\ Forall (fun d => (0 < d)%R) ds /\
    (forall oi oj o i j T, In ([oi; oj], o) l -> int_is oi i -> int_is oj j -> ratio_val o = Some (Fin T : XR) -> dir ds j = (T * dir ds i)%R) /\
    nt2_doi fuel k l = Ok (xv ds) /\
    nt_weights (NV2 start fuel) m (PPairs l) nadir ut = Ok (xv (map (fun d => 1 / d)%R ds)).
Proof.
  intros m l k start fuel nadir ut HC HL HK H2 Hfin Hl Hf.
  destruct (pairs_checked _ _ _ HC) as (E1 & E2 & E3 & Hlen & ms & HV).
  destruct (entries_edges k l ms HV H2 Hfin) as (es & El & He & HF).
  pose proof (linked_chain l es HF) as HLC.
  destruct (doi_run_ok k HK es He l fuel El) as (rs & R1 & R2 & R3 & R4 & R5).
  - assert (HFL : length l = length es) by (clear -HF; induction HF; cbn; congruence). congruence.
  - intros i Hi. apply HLC, Hl, Hi.
  - exact Hf.
  - assert (P : Forall (fun d => (0 < d)%R) rs).
    { apply Forall_forall. intros d Hd. apply (In_nth _ _ 0%R) in Hd as (i & Hi & <-). specialize (R4 (S i) ltac:(lia)). unfold val in R4. replace (S i - 1) with i in R4 by lia. exact R4. }
    exists rs. split; [exact R2|]. split; [exact R3|]. split; [exact P|]. split; [|split; [exact R1|]].
    + intros oi oj o i j T Hin I1 I2 Er. apply In_nth_error in Hin as (n & Hn). destruct (Forall2_nth_l _ _ _ _ _ HF Hn) as (e & Hen & (oi' & oj' & Ex & J1 & J2 & Er')).
      cbn in Ex, Er'. injection Ex as <- <-. rewrite Er in Er'. injection Er' as ->. unfold int_is in *.
      assert (i = ea e) by (apply Nat2Z.inj; congruence). assert (j = eb e) by (apply Nat2Z.inj; congruence). subst i j.
      apply (R5 e). apply nth_error_In in Hen. exact Hen.
    + unfold nt_weights, nt2_factors. rewrite E1, E2, E3. cbn [orb]. rewrite HL, R1. cbn [rmap]. f_equal. clear -P. induction P as [|d ds Hd P IH]; [reflexivity|].
      cbn [xv map]. fold (xv ds). f_equal; [|exact IH]. change (@ndiv XR (nofZ 1) (Fin d : XR)) with (xdiv (Fin 1) (Fin d)). rewrite xdiv_fin; [reflexivity|lra].
Qed.
Print Assumptions C48_directions.

(** Refuted in general: if some objective is not linked to the first one, the loop
    runs forever, whatever the (accepted) ratios. *)
Theorem C48_unlinked_diverges :
  forall (m : pyval XR) (l : list (list (pyval XR) * pyval XR)) k i,
  nt2_check k m (PPairs l) = Ok tt -> 0 < k ->
  Forall (fun e => length (fst e) = 2) l -> (forall e, In e l -> exists r, ratio_val (snd e) = Some (Fin r : XR)) ->
  1 <= i <= k -> ~ linked l 1 i -> forall fuel, nt2_doi fuel k l = Raise Diverges.
Proof.
  intros m l k i HC HK H2 Hfin Hi Hno fuel.
  destruct (pairs_checked _ _ _ HC) as (E1 & E2 & E3 & Hlen & ms & HV).
  destruct (entries_edges k l ms HV H2 Hfin) as (es & El & He & HF).
  apply (doi_run_diverges k HK es He l fuel i El Hi). intros K. apply Hno. apply (linked_chain l es HF). exact K.
Qed.
Print Assumptions C48_unlinked_diverges.

(** Refuted on IEEE doubles: four objectives, ratios for (1,2), (3,4) and (3,4)
    are accepted and never end; so are, for three objectives, (1,2) and (3,3).  An
    entry with only one objective is accepted and fails with IndexError. *)
Definition pr (a b : Z) (r : F64) : list (pyval F64) * pyval F64 := ([VInt a; VInt b], VFloat r (Some 2%Z)).
Definition l4 : list (list (pyval F64) * pyval F64) := [pr 1 2 2%float; pr 3 4 2%float; pr 3 4 2%float].
Definition l3 : list (list (pyval F64) * pyval F64) := [pr 1 2 2%float; pr 3 3 2%float].
Definition l1 : list (list (pyval F64) * pyval F64) := [([VInt 1; VInt 2], VInt 2); ([VInt 3], VInt 2)].
Lemma loop_fixed {N : NumOps} ms ps (ds : list N) : existsb (fun d => neqb d (nofZ 0)) ds = true -> doi_pass ms ps ds = Ok ds ->
  forall fuel, doi_loop fuel ms ps ds = Raise Diverges.
Proof. intros H1 H2 fuel. induction fuel as [|fuel IH]; cbn [doi_loop]; rewrite H1; [reflexivity|]. rewrite H2. cbn [rbind]. exact IH. Qed.
Definition ps4 : list (Z * Z * F64) := [(1%Z, 2%Z, 2%float : F64); (3%Z, 4%Z, 2%float : F64); (3%Z, 4%Z, 2%float : F64)].
Definition ps3 : list (Z * Z * F64) := [(1%Z, 2%Z, 2%float : F64); (3%Z, 3%Z, 2%float : F64)].
Definition ds4 : list F64 := [1; 2; 0; 0]%float.
Definition ds3 : list F64 := [1; 2; 0]%float.
Theorem C48_accepted_ratios_refuted :
  (nt2_check (N:=F64) 4 (VInt 3) (PPairs l4) = Ok tt /\ forall fuel, nt2_doi fuel 4 l4 = Raise Diverges) /\
  (nt2_check (N:=F64) 3 (VInt 3) (PPairs l3) = Ok tt /\ forall fuel, nt2_doi fuel 3 l3 = Raise Diverges) /\
  (nt2_check (N:=F64) 3 (VInt 3) (PPairs l1) = Ok tt /\ forall fuel, nt2_doi fuel 3 l1 = Raise IndexErr).
Proof.
  split; [split; [vm_compute; reflexivity|]|split; [split; [vm_compute; reflexivity|]|split; [vm_compute; reflexivity|intros fuel; reflexivity]]].
  - intros fuel. change (nt2_doi fuel 4 l4) with (doi_loop fuel (doi_missing ds4) ps4 ds4). apply loop_fixed; [vm_compute; reflexivity|].
    vm_cast_no_check (eq_refl (@Ok (list F64) ds4)).
  - intros fuel. change (nt2_doi fuel 3 l3) with (doi_loop fuel (doi_missing ds3) ps3 ds3). apply loop_fixed; [vm_compute; reflexivity|].
    vm_cast_no_check (eq_refl (@Ok (list F64) ds3)).
Qed.
Print Assumptions C48_accepted_ratios_refuted.

(** Accepted, linked pairs: ((1,2), 2) and ((3,2), 4) for three objectives. *)
Definition lx : list (list (pyval XR) * pyval XR) := [([VInt 1; VInt 2], VInt 2); ([VInt 3; VInt 2], VInt 4)].
Example C48_hypotheses_met :
  nt2_check 3 (VInt 3) (PPairs lx) = Ok tt /\ Forall (fun e => length (fst e) = 2) lx /\
  (forall e, In e lx -> exists r, ratio_val (snd e) = Some (Fin r : XR)) /\ (forall i, 1 <= i <= 3 -> linked lx 1 i).
Proof.
  split; [|split; [repeat constructor|split]].
  - assert (P : forall z, (1 <= z)%Z -> nleb (nofZ z : XR) (nofZ 0) = false) by (intros z Hz; apply xleb_fin_false; apply IZR_lt; lia).
    assert (E : rseq (map (nt2_pair 3) lx) = Ok [[1; 2]; [3; 2]]).
    { unfold lx. cbn [map]. unfold nt2_pair. cbn [fst snd nt2_objs as_int ratio_val]. rewrite !P by lia. reflexivity. }
    unfold nt2_check. rewrite E. reflexivity.
  - intros e [<-|[<-|[]]]; eexists; reflexivity.
  - assert (L2 : linked lx 1 2) by (eapply (linked_step lx 1 1 2); [apply linked_refl|left; reflexivity|left; split; reflexivity]).
    intros i Hi. assert (i = 1 \/ i = 2 \/ i = 3) as [->|[->| ->]] by lia; [apply linked_refl|exact L2|].
    eapply (linked_step lx 1 2 3); [exact L2|right; left; reflexivity|right; split; reflexivity].
Qed.

(** ** C49: no IndexError *)
(** Partial: with entries of two objectives, and the number of remaining
    iterations raised only on the first step, no history fails with IndexError.
    Missing: answers that raise it later, see below. *)
Theorem C49_no_index_error_partial :
  forall (N : NumOps) (p : nt_problem N) start fuel eps k ideal nadir s qs q resp s' e,
  let v := NV2 start fuel in
  nt_wf k p v ideal nadir -> nt_no_index_errors p ->
  nt_reach p v eps ideal nadir nt_v2_careful s qs -> In q qs ->
  (forall d, resp = Some d -> nt_validate v nadir q d = Ok tt) -> nt_v2_careful s qs q resp ->
  nt_iterate p v eps ideal nadir q resp s = (s', Raise e) -> e <> IndexErr.
Proof.
  intros N p start fuel eps k ideal nadir s qs q resp s' e v WF HN HR Hq HV HA HI ->.
  destruct (step_ok p v eps k ideal nadir WF HN s qs q resp s' _ (reach_ok p v eps k ideal nadir WF HN s qs HR) Hq HV HA HI) as [_ G]. apply G. reflexivity.
Qed.
Print Assumptions C49_no_index_error_partial.

(** Refuted: three iterations; on the second step the decision maker asks for
    three more (the buffers have 5 places and do not grow); two steps later the
    session fails with IndexError, with one iteration left. *)
Definition v2 : nt_variant F64 := NV2 eN 10.
Definition a_more : nt_dict F64 := MkND (Some (VInt 3)) (Some (VBool false)) (Some (VBool false)) (Some (VBool true)) None None.
Definition r_of {A} (r : res (option A)) (a : A) : A := match r with Ok (Some x) => x | _ => a end.
Definition g1 := e_it eA v2 NInit (a_init 3 1 ranks12) nt_init.
Definition g_q1 := r_of (snd g1) (@NInit F64).
Definition g2 := e_it eA v2 g_q1 a_keep (fst g1).
Definition g_q2 := r_of (snd g2) (@NInit F64).
Definition g3 := e_it eA v2 g_q2 a_more (fst g2).
Definition g_q3 := r_of (snd g3) (@NInit F64).
Definition g4 := e_it eA v2 g_q3 a_keep (fst g3).
Lemma g_s1 : e_it eA v2 NInit (a_init 3 1 ranks12) nt_init = (fst g1, Ok (Some g_q1)). Proof. vm_cast_no_check (eq_refl (fst g1, Ok (Some g_q1))). Qed.
Lemma g_s2 : e_it eA v2 g_q1 a_keep (fst g1) = (fst g2, Ok (Some g_q2)). Proof. vm_cast_no_check (eq_refl (fst g2, Ok (Some g_q2))). Qed.
Lemma g_s3 : e_it eA v2 g_q2 a_more (fst g2) = (fst g3, Ok (Some g_q3)). Proof. vm_cast_no_check (eq_refl (fst g3, Ok (Some g_q3))). Qed.
Theorem C49_more_iterations_refuted :
  nt_wf 2 eA v2 eI eN /\ nt_no_index_errors eA /\
  nt_path eA v2 eEps eI eN (fun _ _ => True) (fst g3) [g_q3; g_q2; g_q1; NInit] /\
  (ns_left (fst g3) = 2)%Z /\ nt_validate v2 eN g_q3 a_keep = Ok tt /\
  exists s', nt_iterate eA v2 eEps eI eN g_q3 (Some a_keep) (fst g3) = (s', Raise IndexErr).
Proof.
  split; [repeat split; try (cbn; lia); intros x; unfold eA, eP, np_eval, ev2; destruct x as [|? [|? [|]]]; reflexivity|].
  split; [exact (total_no_index eA (eP_total e6 epts))|]. split.
  - unfold nt_path. change tt with ((fun _ _ _ _ => tt) tt g_q2 a_more g_q3). eapply nt_run_step; [|vm_compute; reflexivity|exact Logic.I|exact g_s3].
    change tt with ((fun _ _ _ _ => tt) tt g_q1 a_keep g_q2). eapply nt_run_step; [|vm_compute; reflexivity|exact Logic.I|exact g_s2].
    change tt with ((fun _ _ _ _ => tt) tt (@NInit F64) (a_init 3 1 ranks12) g_q1). eapply nt_run_step; [apply nt_run_start|vm_compute; reflexivity|exact Logic.I|exact g_s1].
  - split; [vm_compute; reflexivity|]. split; [vm_compute; reflexivity|]. exists (fst g4). vm_cast_no_check (eq_refl (fst g4, @Raise (option (nt_request F64)) IndexErr)).
Qed.
Print Assumptions C49_more_iterations_refuted.
Lemma keep_careful s qs q : q <> NInit -> nt_v2_careful s qs q (Some a_keep).
Proof. intros Hq. split; [intros ->; contradiction|]. intros d E. injection E as <-. split; [intros l E; discriminate|intros o m _ E; discriminate]. Qed.
Example C49_hypotheses_met :
  nt_wf 2 eA v2 eI eN /\ nt_no_index_errors eA /\ nt_reach eA v2 eEps eI eN nt_v2_careful (fst g2) [g_q2; g_q1; NInit] /\
  nt_v2_careful (fst g2) [g_q2; g_q1; NInit] g_q2 (Some a_keep).
Proof.
  split; [repeat split; try (cbn; lia); intros x; unfold eA, eP, np_eval, ev2; destruct x as [|? [|? [|]]]; reflexivity|].
  split; [exact (total_no_index eA (eP_total e6 epts))|]. split; [|apply keep_careful, not_init; vm_compute; reflexivity].
  change [g_q2; g_q1; NInit] with (match @Ok (option (nt_request F64)) (Some g_q2) with Ok (Some q') => q' :: [g_q1; NInit] | _ => [g_q1; NInit] end).
  eapply (nt_reach_step eA v2 eEps eI eN nt_v2_careful (fst g1) [g_q1; NInit] g_q1 (Some a_keep)); [|left; reflexivity|intros d E; injection E as <-; vm_compute; reflexivity|apply keep_careful, not_init; vm_compute; reflexivity|exact g_s2].
  change [g_q1; NInit] with (match @Ok (option (nt_request F64)) (Some g_q1) with Ok (Some q') => q' :: [NInit] | _ => [@NInit F64] end).
  eapply (nt_reach_step eA v2 eEps eI eN nt_v2_careful nt_init [NInit] NInit (Some (a_init 3 1 ranks12))); [apply nt_reach_init|left; reflexivity|intros d E; injection E as <-; vm_compute; reflexivity| |exact g_s1].
  split; [intros _; reflexivity|]. intros d E. injection E as <-. split; [intros l E; discriminate|]. intros o m H. congruence.
Qed.

(** ** C50: convergence *)
Theorem C50_convergence :
  forall (p : nt_problem XR) start fuel eps k ideal nadir (F : list XR -> list R) n s qs,
  let v := NV2 (xv start) fuel in
  nt_wf k p v ideal nadir -> (forall x, np_eval p x = xv (F x)) ->
  nt_path p v eps ideal nadir (same_answers n) s qs -> 1 < length qs ->
  exists x w, np_min p w nadir (map (fun m => nsub m eps) ideal) (xv start) (np_x0 p) = Ok x /\
  forall j q, nth_error (rev qs) j = Some q -> 1 <= j ->
    let z := rbetween (INR j / IZR n) start (F x) in
    ((Z.of_nat j <= n)%Z -> exists lo e, q = NReq (xv z) lo (xv z) e /\ (F x <> start -> e = Fin (INR j / IZR n * 100)%R)) /\
    ((n < Z.of_nat j)%Z -> q = NStop (Some x) (Some (xv (F x)))).
Proof.
  intros p start fuel eps k ideal nadir F n s qs v WF HF HP HL. destruct qs as [|q qs]; [cbn in HL; lia|].
  destruct (same_closed p v eps k ideal nadir F start n WF HF eq_refl s q qs HP) as (w & wt & H1 & H2 & H3 & q1 & qs1 & _ & _ & H4); [intros ->; cbn in HL; lia|].
  exists (vx w), wt. split; [exact H1|]. intros j q' Hj H. exact (H4 j q' Hj H).
Qed.
Print Assumptions C50_convergence.

(** The closed form does not depend on the preferences that were given: the n-th
    iteration point is the objective vector of the final solution. *)
Theorem C50_last_point_is_final :
  forall (p : nt_problem XR) start fuel eps k ideal nadir (F : list XR -> list R) n s qs z lo up e x f,
  let v := NV2 (xv start) fuel in
  nt_wf k p v ideal nadir -> (forall x, np_eval p x = xv (F x)) ->
  nt_path p v eps ideal nadir (same_answers n) s qs ->
  nth_error (rev qs) (Z.to_nat n) = Some (NReq z lo up e) -> nth_error (rev qs) (S (Z.to_nat n)) = Some (NStop x f) ->
  f = Some z.
Proof.
  intros p start fuel eps k ideal nadir F n s qs z lo up e x f v WF HF HP Hz Hf.
  assert (HL : 1 < length qs) by (assert (S (Z.to_nat n) < length (rev qs)) by (apply nth_error_Some; congruence); rewrite rev_length in *; lia).
  destruct (C50_convergence p start fuel eps k ideal nadir F n s qs WF HF HP HL) as (x0 & w & H1 & H2).
  destruct (H2 _ _ Hf ltac:(lia)) as [G1 G2]. destruct (Z.le_gt_cases 1 n) as [Hn|Hn].
  - specialize (G2 ltac:(lia)). injection G2 as -> ->. destruct (H2 _ _ Hz ltac:(lia)) as [H3 _]. destruct (H3 ltac:(lia)) as (lo' & e' & E & _). injection E as -> -> -> ->. 
    rewrite INR_IZR_INZ, Z2Nat.id by lia. unfold rbetween. replace (IZR n / IZR n)%R with 1%R by (field; apply not_0_IZR; lia). replace (1 - 1)%R with 0%R by ring. rewrite rcomb_1_0; [reflexivity|].
    destruct WF as (_ & _ & _ & W2 & W4). specialize (W4 x0). rewrite HF, xv_length in W4. cbn [nt_start v] in W2. rewrite xv_length in W2. congruence.
  - exfalso. replace (Z.to_nat n) with 0 in Hz by lia. clear -HP Hz. unfold nt_path in HP. remember tt as h. clear Heqh.
    induction HP as [|s q' qs' h0 d s' q'' HP IH HV HA HI]; [discriminate|]. apply IH. apply nth_rev_cons in Hz as [Hz|[Hz _]]; [exact Hz|discriminate].
Qed.
Print Assumptions C50_last_point_is_final.

(** A session of NAUTILUS 2 on exact numbers from the starting point (1/2, 1). *)
Definition cS : list R := [1/2; 1]%R.
Definition cV : nt_variant XR := NV2 (xv cS) 5.
Lemma c2_valid n : (1 <= n)%Z -> nt_validate cV (xv cN) NInit (cA n) = Ok tt.
Proof.
  intros Hn. cbn [nt_validate cA nd_n nd_back nd_prev]. unfold nt_check_pref. cbn [nd_method nd_info cA cV].
  assert (E : nt2_check (length (xv cN)) (VInt 1) (PArr (xv [1; 2]%R) : nt_info XR) = Ok tt).
  { unfold nt2_check. assert (P : existsb (fun x : XR => nleb x (nofZ 0)) (xv [1; 2]%R) = false).
    { cbn [xv map existsb]. assert (P : forall r : R, (0 < r)%R -> @nleb XR (Fin r : XR) (nofZ 0) = false) by (intros r Hr; apply xleb_fin_false; exact Hr). rewrite !P by lra. reflexivity. }
    change (py_eq (VInt 1 : pyval XR) 1) with true. change (py_eq (VInt 1 : pyval XR) 2) with false. change (py_eq (VInt 1 : pyval XR) 3) with false. cbn [orb negb rbind andb]. rewrite P. reflexivity. }
  rewrite E. cbn [rbind]. unfold nt_check_n. cbn [as_int]. destruct (Z.ltb_spec n 1); [lia|reflexivity].
Qed.
Lemma c2_session m n : 1 <= m -> (1 <= n)%Z -> exists s qs, length qs = S m /\ nt_path cP cV (Fin 1 : XR) cI (xv cN) (same_answers n) s qs.
Proof.
  intros Hm Hn. assert (WF : nt_wf 2 cP cV cI (xv cN)) by (apply c_wf; reflexivity).
  assert (mon : forall s qs, nt_path cP cV (Fin 1 : XR) cI (xv cN) (same_answers n) s qs -> nt_path cP cV (Fin 1 : XR) cI (xv cN) (any_answers cV) s qs).
  { intros s qs H. refine (run_weaken _ _ _ _ _ _ _ _ _ _ _ _ _ H). intros q d [_ H1] H2. apply H1, H2. }
  induction m as [|m IH]; [lia|]. destruct m as [|m].
  - destruct (progress cP cV (Fin 1 : XR) 2 cI (xv cN) WF c_total nt_init NInit [] (cA n)) as (s' & q' & E).
    + apply nt_run_start. + apply c2_valid, Hn. + cbn. congruence. + cbn [complete]. unfold usable. cbn [cA nd_method nd_info]. eexists _, _, _. repeat split; reflexivity.
    + exists s', [q'; NInit]. split; [reflexivity|]. unfold nt_path. change tt with ((fun _ _ _ _ => tt) tt (@NInit XR) (cA n) q'). eapply nt_run_step; [apply nt_run_start|apply c2_valid, Hn| |exact E].
      split; [intros _; exists (VInt n); split; reflexivity|congruence].
  - destruct IH as (s & qs & HL & HP); [lia|]. destruct qs as [|q qs]; [discriminate|].
    assert (Hq : q <> NInit).
    { apply (run_not_init _ _ _ _ _ _ _ _ _ _ _ _ HP). intros ->. cbn in HL. lia. }
    assert (HV : nt_validate cV (xv cN) q cK = Ok tt) by (destruct q; [congruence|reflexivity..]).
    assert (HK : keeps cK) by (unfold keeps, says, cK; cbn; repeat split; eauto).
    destruct (progress cP cV (Fin 1 : XR) 2 cI (xv cN) WF c_total s q qs cK (mon _ _ HP) HV) as (s' & q' & E); [intros _; reflexivity| |].
    { destruct q; cbn [complete]; auto; [congruence|]. split; [intros (v & E & T); injection E as <-; discriminate|intros (v & E & T); injection E as <-; discriminate]. }
    exists s', (q' :: q :: qs). split; [cbn in *; lia|]. unfold nt_path. change tt with ((fun _ _ _ _ => tt) tt q cK q'). eapply nt_run_step; [exact HP|exact HV| |exact E].
    split; [contradiction|auto].
Qed.
Example C50_hypotheses_met : exists s qs,
  nt_wf 2 cP cV cI (xv cN) /\ (forall x, np_eval cP x = xv [0; 0]%R) /\ nt_path cP cV (Fin 1 : XR) cI (xv cN) (same_answers 3) s qs /\ length qs = 5.
Proof. destruct (c2_session 4 3) as (s & qs & HL & HP); [lia|lia|]. exists s, qs. split; [apply c_wf; reflexivity|]. split; [reflexivity|]. split; [exact HP|exact HL]. Qed.
