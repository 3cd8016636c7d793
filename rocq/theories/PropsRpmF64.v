(** * Reference point method in IEEE doubles: the perturbed reference points (C38).
    Vocabulary in SRpm.v and SFloat.v. *)
From Coq Require Import ZArith List Bool Lia Reals Lra Floats.
From Flocq Require Import Core.
From Verif Require Import Num NumXR NumF64 Py Np Spec NpFacts XRFacts F64Sums F64Step SFloat F64Vec F64Between MRpm SRpm PRpm PropsRpm.
Import ListNotations.
Local Open Scope R_scope.
Local Notation u := (bpow radix2 (-53)).

Lemma fmul_one (d : F64) : ffin d -> Rabs (fval d) <= bpow radix2 600 -> ffin (PrimFloat.mul d (f64_ofZ 1)) /\ fval (PrimFloat.mul d (f64_ofZ 1)) = fval d.
Proof.
  intros F B. destruct (f64_ofZ_exact 1) as [F1 E1]; [lia|]. destruct (f64_mul_err d (f64_ofZ 1) F F1) as [G E].
  - rewrite E1, Rmult_1_r. eapply Rle_trans; [exact B|apply bpow_le; lia].
  - split; [exact G|]. rewrite E, E1, Rmult_1_r. apply round_generic; [apply BinarySingleNaN.valid_rnd_round_mode|apply fval_format].
Qed.
Lemma fmul_zero (d : F64) : ffin d -> ffin (PrimFloat.mul d (f64_ofZ 0)) /\ fval (PrimFloat.mul d (f64_ofZ 0)) = 0.
Proof.
  intros F. destruct (f64_ofZ_exact 0) as [F1 E1]; [lia|]. destruct (f64_mul_err d (f64_ofZ 0) F F1) as [G E].
  - rewrite E1, Rmult_0_r, Rabs_R0. apply bpow_ge_0.
  - split; [exact G|]. rewrite E, E1, Rmult_0_r. apply round_0, BinarySingleNaN.valid_rnd_round_mode.
Qed.

(** The perturbed points are q except in one component each, and that component is q_i plus the
    distance between q and the solution, up to k + 5 roundings. *)
Theorem C38_perturbed_points_doubles :
  forall (p : rp_problem F64) rho eps k ideal nadir s qs r d q s' f fs,
  rp_wf k p ideal nadir -> rp_reach p rho eps ideal nadir s qs -> In r qs ->
  rp_validate ideal nadir r d = Ok tt -> rp_continues r d q ->
  rp_iterate p rho eps ideal nadir r (Some d) s = (s', Ok (RReq f fs)) ->
  (Z.of_nat k <= 2 ^ 20)%Z -> fin_below 500 q -> fin_below 500 f -> apart (-500) q f ->
  exists w pqs, Forall2 (fun q' f' => exists x', rp_solves p rho w nadir (map (fun x => nsub x eps) ideal) q' x' f') pqs fs /\
    length pqs = k /\
    forall i pq, nth_error pqs i = Some pq -> length pq = k /\
      forall j y z, nth_error q j = Some y -> nth_error pq j = Some z ->
        let dist := rdist (map fval q) (map fval f) in
        ffin z /\ (j <> i -> fval z = fval y) /\
        (j = i -> Rabs (fval z - (fval y + dist)) <= (2 * INR k + 10) * bpow radix2 (-53) * (Rabs (fval y) + dist)).
Proof.
  intros p rho eps k ideal nadir s qs r d q s' f fs WF R Hin HV Hc H Hk Bq Bf Hap.
  destruct (C38_solutions F64 F64_ord p rho eps k ideal nadir s qs r d q s' _ WF R Hin HV Hc H) as (f' & fs' & w & pqs & x & E & Lfs & Lf & Ew & S & P & G).
  injection E as <- <-. destruct P as [LP P]. assert (LG := Forall2_len _ _ _ G). exists w, pqs. split; [exact G|]. split; [congruence|].
  assert (Lq : length q = k) by congruence. rewrite Lq in P.
  change (vsub q f) with (fsub q f) in P. set (n := vnorm (fsub q f)) in *.
  destruct (fnorm_facts (fsub q f) (fsub_below q f Bq Bf)) as (FN & BN & _); [rewrite fsub_len by congruence; congruence|]. fold n in FN, BN.
  assert (RN := fdist_rel (-500) q f ltac:(lia) ltac:(congruence) ltac:(congruence) Bq Bf Hap). fold n in RN. rewrite Lq in RN.
  set (ds := rdist (map fval q) (map fval f)) in *. assert (PD : 0 <= ds) by apply rdist_nonneg. clearbody n ds.
  intros i pq Hpq. destruct (P i pq Hpq) as [Lpq Hj]. split; [exact Lpq|]. intros j y z Ey Ez dist. specialize (Hj j y Ey). rewrite Ez in Hj. injection Hj as ->.
  destruct (within_nth _ _ _ _ Bq Ey) as [Fy By].
  assert (BN2 : Rabs (fval n) <= bpow radix2 511) by (rewrite Rabs_pos_eq; lra).
  destruct (Nat.eqb_spec j i) as [->|Hne].
  - destruct (fmul_one n FN) as [F1 E1]; [eapply Rle_trans; [exact BN2|apply bpow_le; lia]|].
    change (@nadd F64 y (nmul n (nofZ 1))) with (PrimFloat.add y (PrimFloat.mul n (f64_ofZ 1))).
    destruct (f64_add_err y (PrimFloat.mul n (f64_ofZ 1)) Fy F1) as [F2 E2].
    { rewrite E1. eapply Rle_trans; [apply Rabs_triang|]. apply Rle_trans with (bpow radix2 511 + bpow radix2 511).
      - apply Rplus_le_compat; [eapply Rle_trans; [exact By|apply bpow_le; lia]|exact BN2].
      - apply Rle_trans with (bpow radix2 1 * bpow radix2 511); [change (bpow radix2 1) with 2; lra|rewrite <- bpow_plus; apply bpow_le; lia]. }
    split; [exact F2|]. split; [congruence|]. intros _.
    change (Rabs (fval (PrimFloat.add y (PrimFloat.mul n (f64_ofZ 1))) - (fval y + ds)) <= (2 * INR k + 10) * u * (Rabs (fval y) + ds)). rewrite E2, E1.
    destruct (rnd_plus (fval y) (fval n) (fval_format y) (fval_format n)) as (e & He & ->). pose proof u_tiny as [U1 U2].
    assert (KI : INR (k + 4) = INR k + 4) by (rewrite plus_INR; cbn [INR]; lra).
    assert (KB : INR k <= bpow radix2 20) by (rewrite INR_IZR_INZ; change (bpow radix2 20) with (IZR (2 ^ 20)); apply IZR_le; lia).
    assert (KU : (bpow radix2 20 + 4) * u <= / 2).
    { apply Rle_trans with (bpow radix2 21 * u); [apply Rmult_le_compat_r; [lra|]; change (bpow radix2 20) with 1048576; change (bpow radix2 21) with 2097152; lra|]. rewrite <- bpow_plus. change (/ 2) with (bpow radix2 (-1)). apply bpow_le. lia. }
    assert (KU' : (INR k + 4) * u <= / 2) by (eapply Rle_trans; [|exact KU]; apply Rmult_le_compat_r; lra).
    assert (W1 := rel_err (k + 4) (fval n) ds ltac:(rewrite KI; exact KU') RN). rewrite KI, (Rabs_pos_eq ds) in W1 by exact PD.
    assert (ND : fval n <= 2 * ds).
    { apply Rabs_le_inv in W1. assert (2 * (INR k + 4) * u * ds <= 1 * ds) by (apply Rmult_le_compat_r; lra). lra. }
    replace ((fval y + fval n) * (1 + e) - (fval y + ds)) with ((fval n - ds) + (fval y + fval n) * e) by ring.
    eapply Rle_trans; [apply Rabs_triang|]. rewrite Rabs_mult.
    assert (B1 : Rabs (fval y + fval n) <= Rabs (fval y) + 2 * ds) by (eapply Rle_trans; [apply Rabs_triang|]; rewrite (Rabs_pos_eq (fval n)) by lra; lra).
    pose proof (Rabs_pos (fval y)). pose proof (Rabs_pos e). pose proof (Rabs_pos (fval y + fval n)). pose proof (pos_INR k).
    assert (B2 : Rabs (fval y + fval n) * Rabs e <= (Rabs (fval y) + 2 * ds) * u) by (apply Rmult_le_compat; lra).
    assert (0 <= (2 * INR k + 9) * u * Rabs (fval y)) by (apply Rmult_le_pos; [apply Rmult_le_pos; lra|lra]).
    replace ((2 * INR k + 10) * u * (Rabs (fval y) + ds)) with ((2 * INR k + 9) * u * Rabs (fval y) + u * Rabs (fval y) + (2 * (INR k + 4) * u * ds + 2 * ds * u)) by ring. lra.
  - destruct (fmul_zero n FN) as [F1 E1].
    change (@nadd F64 y (nmul n (nofZ 0))) with (PrimFloat.add y (PrimFloat.mul n (f64_ofZ 0))).
    destruct (f64_add_err y (PrimFloat.mul n (f64_ofZ 0)) Fy F1) as [F2 E2].
    { rewrite E1, Rplus_0_r. eapply Rle_trans; [exact By|apply bpow_le; lia]. }
    split; [exact F2|]. split; [|intros; congruence]. intros _. transitivity (fval (PrimFloat.add y (PrimFloat.mul n (f64_ofZ 0)))); [reflexivity|]. rewrite E2, E1, Rplus_0_r. apply round_generic; [apply BinarySingleNaN.valid_rnd_round_mode|apply fval_format].
Qed.
Print Assumptions C38_perturbed_points_doubles.

(** The hypotheses are met: the iteration of C38_C39_C40_hypotheses_met (reference point (1, 1),
    solution (2, 2)). *)
Example C38_doubles_hypotheses_met :
  rp_wf 2 eP eI eN /\ rp_reach eP erho eeps eI eN rp_init [RInit] /\ rp_validate eI eN RInit (e_go v1) = Ok tt /\
  rp_continues RInit (e_go v1) v1 /\ rp_iterate eP erho eeps eI eN RInit (Some (e_go v1)) rp_init = (e_s1, Ok (RReq v2 [v2; v2])) /\
  fin_below 500 v1 /\ fin_below 500 v2 /\ apart (-500) v1 v2.
Proof.
  destruct C38_C39_C40_hypotheses_met as (H1 & _ & H2 & H3 & H4 & H5 & _).
  split; [exact H1|]. split; [exact H2|]. split; [exact H3|]. split; [exact H4|]. split; [exact H5|].
  destruct (f64_ofZ_exact 1) as [F1 E1]; [lia|]. destruct (f64_ofZ_exact 2) as [F2 E2]; [lia|].
  change (f64_ofZ 1) with 1%float in *. change (f64_ofZ 2) with 2%float in *.
  assert (B1 : Rabs (fval 1%float) <= bpow radix2 500) by (rewrite E1, Rabs_pos_eq by lra; change 1 with (bpow radix2 0); apply bpow_le; lia).
  assert (B2 : Rabs (fval 2%float) <= bpow radix2 500) by (rewrite E2, Rabs_pos_eq by lra; change 2 with (bpow radix2 1); apply bpow_le; lia).
  split; [constructor; [split; assumption|constructor; [split; assumption|constructor]]|].
  split; [constructor; [split; assumption|constructor; [split; assumption|constructor]]|].
  assert (A : bpow radix2 (-500) <= Rabs (fval 1%float - fval 2%float)).
  { rewrite E1, E2. replace (1 - 2) with (- (1)) by ring. rewrite Rabs_Ropp, Rabs_R1. change 1 with (bpow radix2 0). apply bpow_le. lia. }
  constructor; [right; exact A|constructor; [right; exact A|constructor]].
Qed.
