(** * IEEE doubles: rounding of the step [((n - 1) / n) * z + (1 / n) * f] (through Flocq). *)
From Coq Require Import ZArith Reals Floats Lra Bool List Lia Uint63.
From Flocq Require Import Core Relative Plus_error BinarySingleNaN PrimFloat.
From Verif Require Import Num NumF64 F64Sums.
Import ListNotations.
Local Open Scope R_scope.

Local Notation rnd := (round radix2 (SpecFloat.fexp FloatOps.prec FloatOps.emax) (round_mode mode_NE)).
Local Notation fmt := (generic_format radix2 (SpecFloat.fexp FloatOps.prec FloatOps.emax)).
Local Notation u := (bpow radix2 (-53)).
Local Notation eta := (bpow radix2 (-1075)).
Local Instance Vex2 : Valid_exp (SpecFloat.fexp FloatOps.prec FloatOps.emax) := fexp_correct FloatOps.prec FloatOps.emax Hprec.
Local Instance Hp : Prec_gt_0 53. Proof. reflexivity. Qed.

Lemma fmt_bpow e : (-1074 <= e)%Z -> fmt (bpow radix2 e).
Proof.
  intros H. apply generic_format_bpow. unfold SpecFloat.fexp, FloatOps.prec, FloatOps.emax, SpecFloat.emin. lia.
Qed.
Lemma rnd_le_bpow x e : (-1074 <= e)%Z -> Rabs x <= bpow radix2 e -> Rabs (rnd x) <= bpow radix2 e.
Proof. intros He H. apply abs_round_le_generic; auto; [exact Vex2|apply valid_rnd_round_mode|apply fmt_bpow; auto]. Qed.
Lemma rnd_small x : Rabs x <= bpow radix2 1023 -> Rlt_bool (Rabs (rnd x)) (bpow radix2 FloatOps.emax) = true.
Proof.
  intros H. apply Rlt_bool_true. eapply Rle_lt_trans; [apply (rnd_le_bpow x 1023); auto; lia|].
  apply bpow_lt. reflexivity.
Qed.

Lemma u_half : (/ 2 * bpow radix2 (- (53) + 1))%R = u.
Proof. change (-(53) + 1)%Z with (1 + -53)%Z. rewrite bpow_plus. change (bpow radix2 1) with 2. lra. Qed.
Lemma eta_half : (/ 2 * bpow radix2 (-1074))%R = eta.
Proof. change (-1074)%Z with (1 + -1075)%Z. rewrite bpow_plus. change (bpow radix2 1) with 2. lra. Qed.
Lemma rnd_err x : exists d e, Rabs d <= u /\ Rabs e <= eta /\ rnd x = x * (1 + d) + e.
Proof.
  destruct (error_N_FLT radix2 (-1074) 53 eq_refl (fun x => negb (Z.even x)) x) as (d & e & Hd & He & _ & E).
  exists d, e. rewrite u_half in Hd. rewrite eta_half in He. auto.
Qed.
Lemma rnd_rel x : bpow radix2 (-1022) <= Rabs x -> exists d, Rabs d <= u /\ rnd x = x * (1 + d).
Proof.
  intros H. destruct (relative_error_N_FLT_ex radix2 (-1074) 53 eq_refl (fun x => negb (Z.even x)) x H) as (d & Hd & E).
  exists d. rewrite u_half in Hd. auto.
Qed.
Lemma rnd_plus x y : fmt x -> fmt y -> exists d, Rabs d <= u /\ rnd (x + y) = (x + y) * (1 + d).
Proof.
  intros Hx Hy. destruct (FLT_plus_error_N_ex radix2 (-1074) 53 (fun x => negb (Z.even x)) x y Hx Hy) as (d & Hd & E).
  exists d. split; auto. eapply Rle_trans; [exact Hd|].
  unfold u_ro. rewrite u_half. pose proof (bpow_gt_0 radix2 (-53)).
  apply Rmult_le_reg_r with (1 + u); [lra|]. unfold Rdiv. rewrite Rmult_assoc, Rinv_l by lra. nra.
Qed.

(** The operations, when the exact result is not too large. *)
Lemma f64_mul_err x y : ffin x -> ffin y -> Rabs (fval x * fval y) <= bpow radix2 1023 ->
  ffin (PrimFloat.mul x y) /\ fval (PrimFloat.mul x y) = rnd (fval x * fval y).
Proof.
  unfold ffin, fval at 3. rewrite !is_finite_equiv, mul_equiv. intros Fx Fy B.
  pose proof (Bmult_correct _ _ Hprec Hmax mode_NE (Prim2B x) (Prim2B y)) as H.
  fold (fval x) (fval y) in H. rewrite (rnd_small _ B) in H. destruct H as (H1 & H2 & _).
  split; [rewrite H2, Fx, Fy; reflexivity|exact H1].
Qed.
Lemma f64_add_err x y : ffin x -> ffin y -> Rabs (fval x + fval y) <= bpow radix2 1023 ->
  ffin (PrimFloat.add x y) /\ fval (PrimFloat.add x y) = rnd (fval x + fval y).
Proof.
  unfold ffin, fval at 3. rewrite !is_finite_equiv, add_equiv. intros Fx Fy B.
  pose proof (Bplus_correct _ _ Hprec Hmax mode_NE (Prim2B x) (Prim2B y) Fx Fy) as H.
  fold (fval x) (fval y) in H. rewrite (rnd_small _ B) in H. destruct H as (H1 & H2 & _). auto.
Qed.
Lemma f64_sub_err x y : ffin x -> ffin y -> Rabs (fval x - fval y) <= bpow radix2 1023 ->
  ffin (PrimFloat.sub x y) /\ fval (PrimFloat.sub x y) = rnd (fval x - fval y).
Proof.
  unfold ffin, fval at 3. rewrite !is_finite_equiv, sub_equiv. intros Fx Fy B.
  pose proof (Bminus_correct _ _ Hprec Hmax mode_NE (Prim2B x) (Prim2B y) Fx Fy) as H.
  fold (fval x) (fval y) in H. rewrite (rnd_small _ B) in H. destruct H as (H1 & H2 & _). auto.
Qed.
Lemma f64_div_err x y : ffin x -> fval y <> 0 -> Rabs (fval x / fval y) <= bpow radix2 1023 ->
  ffin (PrimFloat.div x y) /\ fval (PrimFloat.div x y) = rnd (fval x / fval y).
Proof.
  unfold ffin. rewrite !is_finite_equiv. unfold fval at 4. rewrite div_equiv. intros Fx Hy B.
  pose proof (Bdiv_correct _ _ Hprec Hmax mode_NE (Prim2B x) (Prim2B y) Hy) as H.
  fold (fval x) (fval y) in H. rewrite (rnd_small _ B) in H. destruct H as (H1 & H2 & _).
  split; [rewrite H2; exact Fx|exact H1].
Qed.

(** Integers up to 2^53 are doubles. *)
Lemma f64_ofZ_exact n : (0 <= n <= 2 ^ 53)%Z -> ffin (f64_ofZ n) /\ fval (f64_ofZ n) = IZR n.
Proof.
  intros H. destruct n as [|p|p]; [split; [reflexivity|apply fval_0]| |lia].
  unfold f64_ofZ, ffin, fval. rewrite is_finite_equiv, of_int63_equiv.
  assert (E : to_Z (Uint63.of_Z (Z.pos p)) = Z.pos p).
  { rewrite of_Z_spec. apply Z.mod_small. unfold wB, size. split; [lia|].
    eapply Z.le_lt_trans; [apply H|]. reflexivity. }
  rewrite E.
  pose proof (binary_normalize_correct FloatOps.prec FloatOps.emax Hprec Hmax mode_NE (Z.pos p) 0 false) as C.
  cbv zeta in C.
  assert (EF : F2R (Float radix2 (Z.pos p) 0) = IZR (Z.pos p)) by (unfold F2R; cbn [Fnum Fexp]; change (bpow radix2 0) with 1; apply Rmult_1_r).
  rewrite EF in C.
  assert (Ab : Rabs (IZR (Z.pos p)) <= bpow radix2 53).
  { rewrite Rabs_pos_eq by (apply IZR_le; lia). change (bpow radix2 53) with (IZR (2 ^ 53)). apply IZR_le. apply H. }
  assert (G : fmt (IZR (Z.pos p))).
  { destruct (Z.eq_dec (Z.pos p) (2 ^ 53)) as [->|N].
    - change (IZR (2 ^ 53)) with (bpow radix2 53). apply fmt_bpow. lia.
    - rewrite <- EF. apply generic_format_F2R. intros _. cbn [Fnum Fexp]. unfold cexp.
      unfold SpecFloat.fexp, FloatOps.prec, FloatOps.emax, SpecFloat.emin.
      rewrite EF.
      assert (mag radix2 (IZR (Z.pos p)) <= 53)%Z.
      { apply mag_le_bpow. intros K. apply eq_IZR in K. lia.
        rewrite Rabs_pos_eq by (apply IZR_le; lia). change (bpow radix2 53) with (IZR (2 ^ 53)). apply IZR_lt. lia. }
      lia. }
  assert (R : rnd (IZR (Z.pos p)) = IZR (Z.pos p)) by (apply round_generic; [apply valid_rnd_round_mode|exact G]).
  rewrite (rnd_small (IZR (Z.pos p))) in C.
  - destruct C as (C1 & C2 & _). split; [exact C2|]. rewrite C1. exact R.
  - eapply Rle_trans; [exact Ab|]. apply bpow_le. lia.
Qed.

Lemma div_nonneg a b : 0 <= a -> 0 < b -> 0 <= a / b.
Proof. intros. unfold Rdiv. apply Rmult_le_pos; auto. left. apply Rinv_0_lt_compat. auto. Qed.

(** The two coefficients. *)
Lemma f64_coef m n : (0 <= m <= n)%Z -> (1 <= n <= 2 ^ 53)%Z ->
  exists d, Rabs d <= u /\ ffin (PrimFloat.div (f64_ofZ m) (f64_ofZ n)) /\
    fval (PrimFloat.div (f64_ofZ m) (f64_ofZ n)) = IZR m / IZR n * (1 + d).
Proof.
  intros Hm Hn.
  destruct (f64_ofZ_exact m) as [Fm Em]; [lia|]. destruct (f64_ofZ_exact n) as [Fn En]; [lia|].
  assert (Pn : 0 < IZR n) by (apply IZR_lt; lia).
  assert (Pm : 0 <= IZR m <= IZR n) by (split; apply IZR_le; lia).
  assert (Q0 : 0 <= IZR m / IZR n) by (apply div_nonneg; lra).
  assert (Q1 : IZR m / IZR n <= 1) by (apply Rmult_le_reg_r with (IZR n); [lra|]; unfold Rdiv; rewrite Rmult_assoc, Rinv_l; lra).
  assert (B : Rabs (fval (f64_ofZ m) / fval (f64_ofZ n)) <= bpow radix2 1023).
  { rewrite Em, En, Rabs_pos_eq by auto. eapply Rle_trans; [exact Q1|]. change 1 with (bpow radix2 0). apply bpow_le. lia. }
  destruct (f64_div_err (f64_ofZ m) (f64_ofZ n) Fm) as [F E]; [rewrite En; lra|exact B|].
  rewrite E, Em, En. clear E B.
  destruct (Z.eq_dec m 0) as [->|M0].
  - exists 0. rewrite Rabs_R0. split; [apply bpow_ge_0|]. split; auto.
    unfold Rdiv. rewrite !Rmult_0_l. apply round_0. apply valid_rnd_round_mode.
  - destruct (rnd_rel (IZR m / IZR n)) as (d & Hd & E).
    + rewrite Rabs_pos_eq by auto. apply Rle_trans with (bpow radix2 (-53)); [apply bpow_le; lia|].
      apply Rle_trans with (/ IZR n).
      * change (-53)%Z with (- (53))%Z. rewrite bpow_opp. apply Rinv_le; [lra|]. change (bpow radix2 53) with (IZR (2 ^ 53)). apply IZR_le. lia.
      * unfold Rdiv. rewrite <- (Rmult_1_l (/ IZR n)) at 1. apply Rmult_le_compat_r; [left; apply Rinv_0_lt_compat; lra|apply IZR_le; lia].
    + exists d. auto.
Qed.

(** One component of [((n - 1) / n) * z + (1 / n) * f] in doubles. *)
Definition fstep (n : Z) (z f : PrimFloat.float) : PrimFloat.float :=
  PrimFloat.add (PrimFloat.mul (PrimFloat.div (f64_ofZ (n - 1)) (f64_ofZ n)) z)
                (PrimFloat.mul (PrimFloat.div (f64_ofZ 1) (f64_ofZ n)) f).

Lemma cube_err a b c : Rabs a <= u -> Rabs b <= u -> Rabs c <= u -> Rabs ((1 + a) * (1 + b) * (1 + c) - 1) <= 4 * u.
Proof.
  intros A B C. assert (U : 0 < u <= / 8).
  { split; [apply bpow_gt_0|]. replace (/ 8) with (bpow radix2 (-3)) by (cbn; lra). apply bpow_le. lia. }
  set (v := u) in *.
  apply Rabs_le_inv in A, B, C. apply Rabs_le.
  assert (P1 : 0 < 1 + a) by lra. assert (P2 : 0 < 1 + b) by lra. assert (P3 : 0 < 1 + c) by lra.
  assert (H1 : (1 - v) * (1 - v) <= (1 + a) * (1 + b) <= (1 + v) * (1 + v)) by (split; apply Rmult_le_compat; lra).
  assert (H2 : (1 - v) * (1 - v) * (1 - v) <= (1 + a) * (1 + b) * (1 + c) <= (1 + v) * (1 + v) * (1 + v)).
  { split; apply Rmult_le_compat; try lra; nra. }
  split.
  - apply Rle_trans with ((1 - v) * (1 - v) * (1 - v) - 1); [nra|lra].
  - apply Rle_trans with ((1 + v) * (1 + v) * (1 + v) - 1); [lra|nra].
Qed.

Lemma fstep_close n z f : (1 <= n <= 2 ^ 53)%Z -> ffin z -> ffin f ->
  Rabs (fval z) <= bpow radix2 1020 -> Rabs (fval f) <= bpow radix2 1020 ->
  ffin (fstep n z f) /\
  Rabs (fval (fstep n z f) - (IZR (n - 1) / IZR n * fval z + 1 / IZR n * fval f)) <=
    bpow radix2 (-51) * (IZR (n - 1) / IZR n * Rabs (fval z) + 1 / IZR n * Rabs (fval f)) + bpow radix2 (-1073).
Proof.
  intros Hn Fz Ff Bz Bf. unfold fstep.
  destruct (f64_coef (n - 1) n) as (d1 & D1 & F1 & E1); [lia|lia|].
  destruct (f64_coef 1 n) as (d2 & D2 & F2 & E2); [lia|lia|].
  set (w1 := PrimFloat.div (f64_ofZ (n - 1)) (f64_ofZ n)) in *. set (w2 := PrimFloat.div (f64_ofZ 1) (f64_ofZ n)) in *.
  set (a := IZR (n - 1) / IZR n) in *. change (IZR 1) with 1 in E2. set (b := 1 / IZR n) in *.
  assert (Pn : 1 <= IZR n) by (apply IZR_le; lia).
  assert (Pm : 0 <= IZR (n - 1)) by (apply IZR_le; lia).
  assert (Ea : a + b = 1) by (unfold a, b; rewrite minus_IZR; field; lra).
  assert (Pa : 0 <= a) by (unfold a; apply div_nonneg; lra).
  assert (Pb : 0 <= b) by (unfold b; apply div_nonneg; lra).
  assert (U : 0 < u <= / 8).
  { split; [apply bpow_gt_0|]. replace (/ 8) with (bpow radix2 (-3)) by (cbn; lra). apply bpow_le. lia. }
  assert (B20 : bpow radix2 1021 = 2 * bpow radix2 1020) by (change 1021%Z with (1 + 1020)%Z; rewrite bpow_plus; reflexivity).
  assert (B21 : bpow radix2 1022 = 2 * bpow radix2 1021) by (change 1022%Z with (1 + 1021)%Z; rewrite bpow_plus; reflexivity).
  assert (B22 : bpow radix2 1023 = 2 * bpow radix2 1022) by (change 1023%Z with (1 + 1022)%Z; rewrite bpow_plus; reflexivity).
  assert (BP : 0 < bpow radix2 1020) by apply bpow_gt_0.
  assert (W1 : Rabs (fval w1) <= 2).
  { rewrite E1, Rabs_mult, (Rabs_pos_eq a) by auto. apply Rabs_le_inv in D1.
    assert (Rabs (1 + d1) <= 2) by (apply Rabs_le; lra). pose proof (Rabs_pos (1 + d1)). nra. }
  assert (W2 : Rabs (fval w2) <= 2).
  { rewrite E2, Rabs_mult, (Rabs_pos_eq b) by auto. apply Rabs_le_inv in D2.
    assert (Rabs (1 + d2) <= 2) by (apply Rabs_le; lra). pose proof (Rabs_pos (1 + d2)). nra. }
  assert (M1 : Rabs (fval w1 * fval z) <= bpow radix2 1021).
  { rewrite Rabs_mult. pose proof (Rabs_pos (fval z)). pose proof (Rabs_pos (fval w1)). nra. }
  assert (M2 : Rabs (fval w2 * fval f) <= bpow radix2 1021).
  { rewrite Rabs_mult. pose proof (Rabs_pos (fval f)). pose proof (Rabs_pos (fval w2)). nra. }
  destruct (f64_mul_err w1 z F1 Fz) as [G1 V1]; [lra|].
  destruct (f64_mul_err w2 f F2 Ff) as [G2 V2]; [lra|].
  assert (R1 := rnd_le_bpow _ 1021 ltac:(lia) M1). assert (R2 := rnd_le_bpow _ 1021 ltac:(lia) M2).
  rewrite <- V1 in R1. rewrite <- V2 in R2.
  destruct (f64_add_err (PrimFloat.mul w1 z) (PrimFloat.mul w2 f) G1 G2) as [G3 V3].
  { eapply Rle_trans; [apply Rabs_triang|]. lra. }
  split; [exact G3|]. rewrite V3.
  destruct (rnd_plus (fval (PrimFloat.mul w1 z)) (fval (PrimFloat.mul w2 f)) (fval_format _) (fval_format _)) as (d5 & D5 & E5).
  rewrite E5, V1, V2.
  destruct (rnd_err (fval w1 * fval z)) as (d3 & e3 & D3 & X3 & E3). destruct (rnd_err (fval w2 * fval f)) as (d4 & e4 & D4 & X4 & E4).
  rewrite E3, E4, E1, E2.
  replace ((a * (1 + d1) * fval z * (1 + d3) + e3 + (b * (1 + d2) * fval f * (1 + d4) + e4)) * (1 + d5) - (a * fval z + b * fval f))
    with (a * fval z * ((1 + d1) * (1 + d3) * (1 + d5) - 1) + b * fval f * ((1 + d2) * (1 + d4) * (1 + d5) - 1) + (e3 + e4) * (1 + d5)) by ring.
  eapply Rle_trans; [apply Rabs_triang|]. eapply Rle_trans; [apply Rplus_le_compat_r, Rabs_triang|].
  rewrite !Rabs_mult, (Rabs_pos_eq a), (Rabs_pos_eq b) by auto.
  assert (C1 := cube_err d1 d3 d5 D1 D3 D5). assert (C2 := cube_err d2 d4 d5 D2 D4 D5).
  assert (Q : bpow radix2 (-51) = 4 * u) by (change (-51)%Z with (2 + -53)%Z; rewrite bpow_plus; reflexivity).
  assert (Qe : bpow radix2 (-1073) = 4 * eta) by (change (-1073)%Z with (2 + -1075)%Z; rewrite bpow_plus; reflexivity).
  rewrite Q, Qe.
  assert (T : Rabs (e3 + e4) * Rabs (1 + d5) <= 4 * eta).
  { apply Rle_trans with ((2 * eta) * 2); [|lra]. apply Rmult_le_compat; try apply Rabs_pos.
    - eapply Rle_trans; [apply Rabs_triang|]. lra.
    - apply Rabs_le_inv in D5. apply Rabs_le. lra. }
  assert (P1 : 0 <= a * Rabs (fval z)) by (apply Rmult_le_pos; auto; apply Rabs_pos).
  assert (P2 : 0 <= b * Rabs (fval f)) by (apply Rmult_le_pos; auto; apply Rabs_pos).
  assert (T1 := Rmult_le_compat_l _ _ _ P1 C1). assert (T2 := Rmult_le_compat_l _ _ _ P2 C2). lra.
Qed.

(** The last step is exact. *)
Lemma fstep_last z f : ffin z -> ffin f -> ffin (fstep 1 z f) /\ fval (fstep 1 z f) = fval f.
Proof.
  intros Fz Ff. unfold fstep. change (1 - 1)%Z with 0%Z.
  assert (E0 : PrimFloat.div (f64_ofZ 0) (f64_ofZ 1) = 0%float) by reflexivity.
  assert (E1 : PrimFloat.div (f64_ofZ 1) (f64_ofZ 1) = 1%float) by reflexivity.
  rewrite E0, E1.
  destruct (f64_mul_exact 0%float z 0%float ffin_0 Fz) as [G1 V1]; [rewrite fval_0; ring|].
  destruct (f64_mul_exact 1%float f f ffin_1 Ff) as [G2 V2]; [rewrite fval_1; ring|].
  apply (f64_add_exact _ _ f G1 G2). rewrite V1, V2, fval_0. ring.
Qed.
