(** * IEEE doubles: steps and norms of vectors. *)
From Coq Require Import ZArith Reals Floats Lra Bool List Lia.
From Flocq Require Import Core Relative Plus_error BinarySingleNaN PrimFloat.
From Verif Require Import Num NumF64 Py Np Spec NpFacts XRFacts F64Sums F64Step SFloat.
Import ListNotations.
Local Open Scope R_scope.

Local Notation rnd := (round radix2 (SpecFloat.fexp FloatOps.prec FloatOps.emax) (round_mode mode_NE)).
Local Notation fmt := (generic_format radix2 (SpecFloat.fexp FloatOps.prec FloatOps.emax)).
Local Notation u := (bpow radix2 (-53)).
Local Instance Vex3 : Valid_exp (SpecFloat.fexp FloatOps.prec FloatOps.emax) := fexp_correct FloatOps.prec FloatOps.emax Hprec.

(** ** Steps *)
Lemma step_vec n (p z v : list F64) : length p = length z ->
  bcast2 (@nadd F64) (vscale (ndiv (nofZ (n - 1)) (nofZ n)) p) (vscale (ndiv (nofZ 1) (nofZ n)) z) = Ok v ->
  v = zipw (fstep n) p z.
Proof.
  intros L H. rewrite bcast2_eq in H by (unfold vscale; rewrite !map_length; auto). injection H as <-.
  clear. revert z. induction p as [|a p IH]; intros [|b z]; cbn [vscale map zipw]; auto.
  f_equal. apply IH.
Qed.
Lemma zipw_nth {A B C} (f : A -> B -> C) (p : list A) (z : list B) j a b : nth_error p j = Some a -> nth_error z j = Some b ->
  nth_error (zipw f p z) j = Some (f a b).
Proof.
  revert p z. induction j as [|j IH]; intros [|x p] [|y z] Ha Hb; try discriminate; cbn in *.
  - congruence.
  - apply IH; auto.
Qed.
Lemma zipw_len {A B C} (f : A -> B -> C) (p : list A) : forall (z : list B), length p = length z -> length (zipw f p z) = length p.
Proof. induction p as [|a p IH]; intros [|b z] L; cbn in *; auto; discriminate || (f_equal; apply IH; lia). Qed.
Lemma within_nth e v j x : fin_below e v -> nth_error v j = Some x -> ffin x /\ Rabs (fval x) <= bpow radix2 e.
Proof. intros H Hj. unfold fin_below in H. rewrite Forall_forall in H. apply H. eapply nth_error_In; eauto. Qed.
Lemma within_le e e' v : (e <= e')%Z -> fin_below e v -> fin_below e' v.
Proof. intros He H. eapply Forall_impl; [|exact H]. cbn. intros x [A B]. split; auto. eapply Rle_trans; [exact B|]. apply bpow_le. auto. Qed.

Lemma step_rounded n (p z : list F64) : (1 <= n <= 2 ^ 53)%Z -> length p = length z -> fin_below 1020 p -> fin_below 1020 z ->
  rounded_step n p z (zipw (fstep n) p z).
Proof.
  intros Hn L Hp Hz. unfold rounded_step. rewrite zipw_len by auto. split; auto. split; auto.
  intros j a b x Ha Hb Hx. rewrite (zipw_nth _ _ _ _ _ _ Ha Hb) in Hx. injection Hx as <-.
  destruct (within_nth _ _ _ _ Hp Ha). destruct (within_nth _ _ _ _ Hz Hb). apply fstep_close; auto.
Qed.
Lemma step_last_same (p z : list F64) : length p = length z -> Forall ffin p -> Forall ffin z ->
  Forall2 (fun x y => ffin x /\ fval x = fval y) (zipw (fstep 1) p z) z.
Proof.
  revert z. induction p as [|a p IH]; intros [|b z] L Hp Hz; cbn in *; try discriminate; constructor.
  - apply fstep_last; [apply (Forall_inv Hp)|apply (Forall_inv Hz)].
  - apply IH; [lia|apply (Forall_inv_tail Hp)|apply (Forall_inv_tail Hz)].
Qed.
Lemma same_of_val (v w : list F64) : Forall ffin w -> Forall2 (fun x y => ffin x /\ fval x = fval y) v w -> same_numbers v w.
Proof.
  intros Hw H. induction H as [|x y v w [F E] H IH]; constructor.
  - apply f64_eqb_val; auto. apply (Forall_inv Hw).
  - apply IH. apply (Forall_inv_tail Hw).
Qed.
Lemma within_fin e v : fin_below e v -> Forall ffin v.
Proof. intros H. eapply Forall_impl; [|exact H]. cbn. tauto. Qed.

(** ** Relative errors: a product of [m] factors between [1 - u] and [1 / (1 - u)] *)
Definition rel (m : nat) (x y : R) : Prop := exists t, x = y * t /\ (1 - u) ^ m <= t <= / (1 - u) ^ m.

Lemma u_small : 0 < u <= / 8.
Proof.
  assert (E : bpow radix2 (-3) = / 8) by (cbn; lra).
  split; [apply bpow_gt_0|]. rewrite <- E. apply bpow_le. lia.
Qed.
Lemma q_pos m : 0 < (1 - u) ^ m.
Proof. apply pow_lt. pose proof u_small. lra. Qed.
Lemma q_le m m' : (m <= m')%nat -> (1 - u) ^ m' <= (1 - u) ^ m.
Proof.
  intros H. replace m' with (m + (m' - m))%nat by lia. rewrite pow_add.
  rewrite <- (Rmult_1_r ((1 - u) ^ m)) at 2. apply Rmult_le_compat_l; [left; apply q_pos|].
  apply Rle_trans with (1 ^ (m' - m)); [|rewrite pow1; lra]. apply pow_incr. pose proof u_small. lra.
Qed.
Lemma q_1 m : (1 - u) ^ m <= 1.
Proof. apply (q_le 0 m). lia. Qed.
Lemma inv_ge_1 x : 0 < x -> x <= 1 -> 1 <= / x.
Proof. intros. apply Rmult_le_reg_r with x; auto. rewrite Rinv_l; lra. Qed.
Lemma rel_le m m' x y : (m <= m')%nat -> rel m x y -> rel m' x y.
Proof.
  intros H (t & E & A & B). exists t. split; auto. split.
  - eapply Rle_trans; [apply q_le; eauto|auto].
  - eapply Rle_trans; [exact B|]. apply Rinv_le; [apply q_pos|apply q_le; auto].
Qed.
Lemma rel_refl x : rel 0 x x.
Proof. exists 1. cbn. rewrite Rinv_1. lra. Qed.
Lemma rel_trans m m' x y z : rel m x y -> rel m' y z -> rel (m + m') x z.
Proof.
  intros (t & -> & A & B) (s & -> & C & D). exists (s * t). split; [ring|].
  rewrite pow_add, Rinv_mult. pose proof (q_pos m). pose proof (q_pos m').
  split; rewrite (Rmult_comm s t); apply Rmult_le_compat; lra.
Qed.
Lemma rel_mul m m' x y x' y' : rel m x y -> rel m' x' y' -> rel (m + m') (x * x') (y * y').
Proof.
  intros (t & -> & A & B) (s & -> & C & D). exists (t * s). split; [ring|].
  rewrite pow_add, Rinv_mult. pose proof (q_pos m). pose proof (q_pos m').
  split; apply Rmult_le_compat; lra.
Qed.
Lemma rel_inv m x y : rel m x y -> rel m (/ x) (/ y).
Proof.
  intros (t & -> & A & B). exists (/ t). pose proof (q_pos m). split; [apply Rinv_mult|].
  split.
  - rewrite <- (Rinv_inv ((1 - u) ^ m)). apply Rinv_le; lra.
  - apply Rinv_le; lra.
Qed.
Lemma rel_div m m' x y x' y' : rel m x y -> rel m' x' y' -> rel (m + m') (x / x') (y / y').
Proof. intros A B. apply rel_mul; auto. apply rel_inv; auto. Qed.
Lemma rel_add m x y x' y' : 0 <= y -> 0 <= y' -> rel m x y -> rel m x' y' -> rel m (x + x') (y + y').
Proof.
  intros P P' (t & -> & A & B) (s & -> & C & D).
  destruct (Req_dec (y + y') 0) as [Z|NZ].
  - exists 1. assert (y = 0) by lra. assert (y' = 0) by lra. subst. split; [ring|].
    pose proof (q_1 m). pose proof (q_pos m). split; [auto|]. apply inv_ge_1; auto.
  - exists ((y * t + y' * s) / (y + y')). split; [field; auto|].
    assert (Pp : 0 < y + y') by lra.
    split; apply Rmult_le_reg_r with (y + y'); auto; unfold Rdiv; rewrite Rmult_assoc, Rinv_l, Rmult_1_r by auto; nra.
Qed.
Lemma rel_sqrt m x y : 0 <= y -> rel m x y -> rel m (R_sqrt.sqrt x) (R_sqrt.sqrt y).
Proof.
  intros P (t & -> & A & B). pose proof (q_pos m) as Q. pose proof (q_1 m) as Q1.
  exists (R_sqrt.sqrt t). split; [apply sqrt_mult; lra|].
  set (q := (1 - u) ^ m) in *.
  assert (I : 1 <= / q) by (apply inv_ge_1; auto).
  split.
  - rewrite <- (sqrt_square q) by lra. apply sqrt_le_1_alt. nra.
  - rewrite <- (sqrt_square (/ q)) by lra. apply sqrt_le_1_alt. nra.
Qed.
Lemma rel_0 m x : rel m x 0 -> x = 0.
Proof. intros (t & -> & _). ring. Qed.
Lemma rel_sign m x y : rel m x y -> 0 <= y -> 0 <= x.
Proof. intros (t & -> & A & _) P. pose proof (q_pos m). apply Rmult_le_pos; lra. Qed.
Lemma rel_nz m x y : rel m x y -> y <> 0 -> x <> 0.
Proof. intros (t & -> & A & _) P. pose proof (q_pos m). apply Rmult_integral_contrapositive. split; lra. Qed.
Lemma rel_1 x d : Rabs d <= u -> rel 1 (x * (1 + d)) x.
Proof.
  intros H. apply Rabs_le_inv in H. pose proof u_small. exists (1 + d). split; auto.
  rewrite pow_1. split; [lra|]. apply Rmult_le_reg_r with (1 - u); [lra|]. rewrite Rinv_l by lra. nra.
Qed.
(** What [rel] means. *)
Lemma q_low m : 1 - INR m * u <= (1 - u) ^ m.
Proof.
  induction m as [|m IH]; [cbn; lra|]. rewrite S_INR. cbn [pow]. pose proof u_small. pose proof (pos_INR m).
  apply Rle_trans with ((1 - u) * (1 - INR m * u)); [nra|]. apply Rmult_le_compat_l; lra.
Qed.
Lemma rel_err m x y : INR m * u <= / 2 -> rel m x y -> Rabs (x - y) <= 2 * INR m * u * Rabs y.
Proof.
  intros S (t & -> & A & B). replace (y * t - y) with (y * (t - 1)) by ring. rewrite Rabs_mult, Rmult_comm.
  apply Rmult_le_compat_r; [apply Rabs_pos|]. pose proof (q_low m) as L. pose proof (pos_INR m). pose proof u_small.
  assert (P : 0 <= INR m * u) by (apply Rmult_le_pos; lra).
  apply Rabs_le. split; [lra|].
  assert (/ (1 - u) ^ m <= / (1 - INR m * u)) by (apply Rinv_le; lra).
  assert (/ (1 - INR m * u) <= 1 + 2 * (INR m * u)); [|lra].
  apply Rmult_le_reg_r with (1 - INR m * u); [lra|]. rewrite Rinv_l by lra. nra.
Qed.

(** The rounded operations. *)
Lemma rnd_rel1 x : x = 0 \/ bpow radix2 (-1022) <= Rabs x -> rel 1 (rnd x) x.
Proof.
  intros [->|H].
  - rewrite round_0 by apply valid_rnd_round_mode. apply (rel_le 0); [lia|apply rel_refl].
  - destruct (rnd_rel x H) as (d & Hd & ->). apply rel_1. auto.
Qed.
Lemma rnd_plus_rel x y : fmt x -> fmt y -> rel 1 (rnd (x + y)) (x + y).
Proof. intros Hx Hy. destruct (rnd_plus x y Hx Hy) as (d & Hd & ->). apply rel_1. auto. Qed.
Lemma fmt_opp x : fmt x -> fmt (- x).
Proof. apply generic_format_opp. Qed.
(** ** Norms *)
Definition fsub (v w : list F64) : list F64 := zipw (@nsub F64) v w.
Definition fsqsum (d : list F64) : F64 := vsum (map (fun x => nmul x x) d).
Fixpoint sqsum (d : list R) : R := match d with [] => 0 | x :: d' => x * x + sqsum d' end.

Lemma sqsum_nonneg d : 0 <= sqsum d.
Proof. induction d as [|x d IH]; cbn; [lra|]. nra. Qed.
(** A double that is not zero is at least 2^-1074. *)
Lemma fmt_min x : fmt x -> x <> 0 -> bpow radix2 (-1074) <= Rabs x.
Proof.
  intros H N. apply (generic_format_ge_bpow radix2 (SpecFloat.fexp FloatOps.prec FloatOps.emax)).
  - intros e. unfold SpecFloat.fexp, SpecFloat.emin, FloatOps.prec, FloatOps.emax. lia.
  - apply Rabs_pos_lt. auto.
  - apply generic_format_abs. auto.
Qed.
Lemma rnd_0_le x e : (-1074 <= e)%Z -> bpow radix2 e <= Rabs x -> bpow radix2 e <= Rabs (rnd x).
Proof. intros He H. apply abs_round_ge_generic; auto; [exact Vex3|apply valid_rnd_round_mode|apply fmt_bpow; auto]. Qed.
Lemma rnd_nonneg x : 0 <= x -> 0 <= rnd x.
Proof.
  intros H. rewrite <- (round_0 radix2 (SpecFloat.fexp FloatOps.prec FloatOps.emax) (round_mode mode_NE)).
  apply round_le; auto; [exact Vex3|apply valid_rnd_round_mode].
Qed.
Lemma rnd_le_fmt x y : fmt y -> x <= y -> rnd x <= y.
Proof. intros Hy H. apply round_le_generic; auto; [exact Vex3|apply valid_rnd_round_mode]. Qed.

(** Differences of numbers up to 2^500. *)
Lemma fsub_val x y : ffin x -> ffin y -> Rabs (fval x) <= bpow radix2 500 -> Rabs (fval y) <= bpow radix2 500 ->
  ffin (PrimFloat.sub x y) /\ fval (PrimFloat.sub x y) = rnd (fval x - fval y) /\
  rel 1 (fval (PrimFloat.sub x y)) (fval x - fval y) /\ Rabs (fval (PrimFloat.sub x y)) <= bpow radix2 501.
Proof.
  intros Fx Fy Bx By.
  assert (B : Rabs (fval x - fval y) <= bpow radix2 501).
  { unfold Rminus. eapply Rle_trans; [apply Rabs_triang|]. rewrite Rabs_Ropp. change 501%Z with (1 + 500)%Z. rewrite bpow_plus. change (bpow radix2 1) with 2. lra. }
  destruct (f64_sub_err x y Fx Fy) as [F E]; [eapply Rle_trans; [exact B|apply bpow_le; lia]|].
  split; auto. split; auto. rewrite E. split.
  - unfold Rminus. apply rnd_plus_rel; [apply fval_format|apply generic_format_opp, fval_format].
  - apply rnd_le_bpow; [lia|auto].
Qed.

(** Squares of numbers up to 2^501. *)
Lemma fsq_val x : ffin x -> Rabs (fval x) <= bpow radix2 501 ->
  ffin (PrimFloat.mul x x) /\ fval (PrimFloat.mul x x) = rnd (fval x * fval x) /\
  0 <= fval (PrimFloat.mul x x) <= bpow radix2 1002.
Proof.
  intros Fx Bx.
  assert (B : Rabs (fval x * fval x) <= bpow radix2 1002).
  { rewrite Rabs_mult. change 1002%Z with (501 + 501)%Z. rewrite bpow_plus. pose proof (Rabs_pos (fval x)). apply Rmult_le_compat; auto. }
  destruct (f64_mul_err x x Fx Fx) as [F E]; [eapply Rle_trans; [exact B|apply bpow_le; lia]|].
  split; auto. split; auto. rewrite E.
  split; [apply rnd_nonneg; nra|].
  apply rnd_le_fmt; [apply fmt_bpow; lia|]. rewrite Rabs_pos_eq in B; auto. nra.
Qed.

Lemma fmt_mult j : (0 <= j <= 2 ^ 20)%Z -> fmt (IZR j * bpow radix2 1002).
Proof.
  intros H. destruct (Z.eq_dec j 0) as [->|N]; [rewrite Rmult_0_l; apply generic_format_0|].
  change (fmt (F2R (Float radix2 j 1002))). apply generic_format_F2R. intros _. unfold cexp.
  unfold SpecFloat.fexp, SpecFloat.emin, FloatOps.prec, FloatOps.emax.
  assert (mag radix2 (F2R (Float radix2 j 1002)) <= 1024)%Z; [|cbn [Fexp]; lia].
  apply mag_le_bpow.
  - intros E. apply eq_0_F2R in E. cbn in E. contradiction.
  - rewrite <- F2R_Zabs. unfold F2R. cbn [Fnum Fexp]. rewrite Z.abs_eq by lia.
    apply Rle_lt_trans with (bpow radix2 20 * bpow radix2 1002).
    + apply Rmult_le_compat_r; [apply bpow_ge_0|]. change (bpow radix2 20) with (IZR (2 ^ 20)). apply IZR_le. lia.
    + rewrite <- bpow_plus. apply bpow_lt. lia.
Qed.

(** Sums of at most 2^20 squares. *)
Lemma fsum_sq (d : list F64) : forall (acc : F64) j, Forall (fun x => ffin x /\ Rabs (fval x) <= bpow radix2 501) d ->
  (0 <= j)%Z -> (j + Z.of_nat (length d) <= 2 ^ 20)%Z ->
  ffin acc -> 0 <= fval acc <= IZR j * bpow radix2 1002 ->
  let r := fold_left (@nadd F64) (map (fun x : F64 => nmul x x) d) acc in
  ffin r /\ fval acc <= fval r <= IZR (j + Z.of_nat (length d)) * bpow radix2 1002 /\
  (forall x, In x d -> fval (PrimFloat.mul x x) <= fval r).
Proof.
  induction d as [|x d IH]; intros acc j Hd Hj Hn Fa Ba; cbn [map fold_left length].
  - cbv zeta. cbn [length Z.of_nat]. rewrite Z.add_0_r. split; [auto|]. split; [split; [apply Rle_refl|apply Ba]|]. intros x [].
  - destruct (Forall_inv Hd) as [Fx Bx]. destruct (fsq_val x Fx Bx) as (Fq & _ & Pq & Bq).
    change (@nmul F64 x x) with (PrimFloat.mul x x). change (@nadd F64 acc (PrimFloat.mul x x)) with (PrimFloat.add acc (PrimFloat.mul x x)).
    assert (Sm : 0 <= fval acc + fval (PrimFloat.mul x x) <= IZR (j + 1) * bpow radix2 1002).
    { rewrite plus_IZR. lra. }
    assert (Z.of_nat (S (length d)) = Z.of_nat (length d) + 1)%Z as EL by lia. cbn [length] in Hn.
    destruct (f64_add_err acc (PrimFloat.mul x x) Fa Fq) as [F2 E2].
    { rewrite Rabs_pos_eq by tauto. eapply Rle_trans; [apply Sm|].
      apply Rle_trans with (bpow radix2 20 * bpow radix2 1002).
      - apply Rmult_le_compat_r; [apply bpow_ge_0|]. change (bpow radix2 20) with (IZR (2 ^ 20)). apply IZR_le. lia.
      - rewrite <- bpow_plus. apply bpow_le. lia. }
    assert (Lo1 : fval acc <= fval (PrimFloat.add acc (PrimFloat.mul x x))).
    { rewrite E2. apply round_ge_generic; [exact Vex3|apply valid_rnd_round_mode|apply fval_format|lra]. }
    assert (Lo2 : fval (PrimFloat.mul x x) <= fval (PrimFloat.add acc (PrimFloat.mul x x))).
    { rewrite E2. apply round_ge_generic; [exact Vex3|apply valid_rnd_round_mode|apply fval_format|lra]. }
    assert (Hi1 : fval (PrimFloat.add acc (PrimFloat.mul x x)) <= IZR (j + 1) * bpow radix2 1002).
    { rewrite E2. apply rnd_le_fmt; [apply fmt_mult; lia|tauto]. }
    destruct (IH (PrimFloat.add acc (PrimFloat.mul x x)) (j + 1)%Z (Forall_inv_tail Hd)) as (Fr & Br & Ar); try lia; auto.
    { split; [lra|auto]. }
    cbv zeta. split; [exact Fr|]. split.
    + rewrite EL. replace (j + (Z.of_nat (length d) + 1))%Z with (j + 1 + Z.of_nat (length d))%Z by lia. lra.
    + intros y [->|Hy]; [lra|apply Ar; auto].
Qed.

Lemma f64_sqrt_val x : ffin x -> 0 <= fval x -> ffin (PrimFloat.sqrt x) /\ fval (PrimFloat.sqrt x) = rnd (R_sqrt.sqrt (fval x)).
Proof.
  unfold ffin, fval. rewrite !is_finite_equiv, sqrt_equiv. intros F P.
  destruct (Bsqrt_correct _ _ Hprec Hmax mode_NE (Prim2B x)) as (E & Fi & _).
  split; [|exact E]. rewrite Fi. destruct (Prim2B x) as [s|s| |s m e0 B]; cbn in *; auto; try discriminate.
  destruct s; auto. exfalso. revert P. apply Rlt_not_le. unfold F2R. cbn [Fnum Fexp cond_Zopp].
  rewrite <- (Rmult_0_l (bpow radix2 e0)). apply Rmult_lt_compat_r; [apply bpow_gt_0|]. apply IZR_lt. reflexivity.
Qed.

Definition below501 (d : list F64) : Prop := Forall (fun x => ffin x /\ Rabs (fval x) <= bpow radix2 501) d.

Lemma sqrt_bpow e : R_sqrt.sqrt (bpow radix2 (e + e)) = bpow radix2 e.
Proof. rewrite bpow_plus. apply sqrt_square. apply bpow_ge_0. Qed.

Lemma fsqsum_facts d : below501 d -> (Z.of_nat (length d) <= 2 ^ 20)%Z ->
  ffin (fsqsum d) /\ 0 <= fval (fsqsum d) <= bpow radix2 1022 /\ (forall x, In x d -> fval (PrimFloat.mul x x) <= fval (fsqsum d)).
Proof.
  intros Hd Hn. destruct (fsum_sq d 0%float 0 Hd) as (F & B & A); try lia.
  { apply ffin_0. } { rewrite fval_0. lra. }
  unfold fsqsum, vsum. change (@nofZ F64 0) with 0%float. split; [exact F|]. split; [|exact A].
  rewrite fval_0 in B. split; [lra|]. eapply Rle_trans; [apply B|].
  replace (bpow radix2 1022) with (bpow radix2 20 * bpow radix2 1002) by (rewrite <- bpow_plus; reflexivity).
  apply Rmult_le_compat_r; [apply bpow_ge_0|]. change (bpow radix2 20) with (IZR (2 ^ 20)). apply IZR_le. lia.
Qed.
Lemma fnorm_facts d : below501 d -> (Z.of_nat (length d) <= 2 ^ 20)%Z ->
  ffin (vnorm d) /\ 0 <= fval (vnorm d) <= bpow radix2 511 /\
  (forall x e, In x d -> (-537 <= e <= 501)%Z -> bpow radix2 e <= Rabs (fval x) -> bpow radix2 e <= fval (vnorm d)).
Proof.
  intros Hd Hn. destruct (fsqsum_facts d Hd Hn) as (F & B & A).
  unfold vnorm. fold (fsqsum d). change (@nsqrt F64) with PrimFloat.sqrt.
  destruct (f64_sqrt_val (fsqsum d) F (proj1 B)) as [Fs Es]. split; [exact Fs|]. rewrite Es.
  split; [split|].
  - apply rnd_nonneg. apply sqrt_pos.
  - apply rnd_le_fmt; [apply fmt_bpow; lia|]. rewrite <- (sqrt_bpow 511). apply sqrt_le_1_alt. apply B.
  - intros x e Hx He Hb. apply round_ge_generic; [exact Vex3|apply valid_rnd_round_mode|apply fmt_bpow; lia|].
    rewrite <- (sqrt_bpow e). apply sqrt_le_1_alt. eapply Rle_trans; [|apply (A x Hx)].
    unfold below501 in Hd. rewrite Forall_forall in Hd. destruct (Hd x Hx) as [Fx Bx]. destruct (fsq_val x Fx Bx) as (_ & Eq & _).
    rewrite Eq. apply round_ge_generic; [exact Vex3|apply valid_rnd_round_mode|apply fmt_bpow; lia|].
    rewrite bpow_plus. replace (fval x * fval x) with (Rabs (fval x) * Rabs (fval x)) by (rewrite <- Rabs_mult; apply Rabs_pos_eq; nra).
    pose proof (bpow_ge_0 radix2 e). apply Rmult_le_compat; auto.
Qed.

(** Relative error of the sum of the squares. *)
Definition no_tiny (d : list F64) : Prop := Forall (fun x : F64 => fval x = 0 \/ bpow radix2 (-511) <= Rabs (fval x)) d.
Lemma fsum_sq_rel (d : list F64) : forall (acc : F64) j m A, below501 d -> no_tiny d ->
  (0 <= j)%Z -> (j + Z.of_nat (length d) <= 2 ^ 20)%Z ->
  ffin acc -> 0 <= fval acc <= IZR j * bpow radix2 1002 -> (1 <= m)%nat -> 0 <= A -> rel m (fval acc) A ->
  rel (m + length d) (fval (fold_left (@nadd F64) (map (fun x : F64 => nmul x x) d) acc)) (A + sqsum (map fval d)).
Proof.
  induction d as [|x d IH]; intros acc j m A Hd Ht Hj Hn Fa Ba Hm PA HR; cbn [map fold_left length sqsum].
  - rewrite Nat.add_0_r, Rplus_0_r. exact HR.
  - destruct (Forall_inv Hd) as [Fx Bx]. destruct (fsq_val x Fx Bx) as (Fq & Eq & Pq & Bq).
    change (@nmul F64 x x) with (PrimFloat.mul x x). change (@nadd F64 acc (PrimFloat.mul x x)) with (PrimFloat.add acc (PrimFloat.mul x x)).
    cbn [length] in Hn.
    assert (Sm : 0 <= fval acc + fval (PrimFloat.mul x x) <= IZR (j + 1) * bpow radix2 1002).
    { rewrite plus_IZR. lra. }
    destruct (f64_add_err acc (PrimFloat.mul x x) Fa Fq) as [F2 E2].
    { rewrite Rabs_pos_eq by tauto. eapply Rle_trans; [apply Sm|].
      apply Rle_trans with (bpow radix2 20 * bpow radix2 1002).
      - apply Rmult_le_compat_r; [apply bpow_ge_0|]. change (bpow radix2 20) with (IZR (2 ^ 20)). apply IZR_le. lia.
      - rewrite <- bpow_plus. apply bpow_le. lia. }
    assert (Rq : rel m (fval (PrimFloat.mul x x)) (fval x * fval x)).
    { apply (rel_le 1); auto. rewrite Eq. apply rnd_rel1. destruct (Forall_inv Ht) as [->|T]; [left; ring|right].
      rewrite Rabs_mult. replace (bpow radix2 (-1022)) with (bpow radix2 (-511) * bpow radix2 (-511)) by (rewrite <- bpow_plus; reflexivity).
      pose proof (bpow_ge_0 radix2 (-511)). apply Rmult_le_compat; auto. }
    replace (m + S (length d))%nat with (S m + length d)%nat by lia.
    replace (A + (fval x * fval x + sqsum (map fval d))) with ((A + fval x * fval x) + sqsum (map fval d)) by ring.
    apply (IH _ (j + 1)%Z); try lia; auto.
    + apply (Forall_inv_tail Hd).
    + apply (Forall_inv_tail Ht).
    + rewrite E2. split; [apply rnd_nonneg; tauto|]. apply rnd_le_fmt; [apply fmt_mult; lia|tauto].
    + nra.
    + rewrite E2. replace (S m) with (1 + m)%nat by lia. eapply rel_trans; [apply rnd_plus_rel; apply fval_format|].
      apply rel_add; auto. nra.
Qed.
Lemma fnorm_rel d : below501 d -> no_tiny d -> (Z.of_nat (length d) <= 2 ^ 20)%Z ->
  rel (length d + 2) (fval (vnorm d)) (R_sqrt.sqrt (sqsum (map fval d))).
Proof.
  intros Hd Ht Hn. destruct (fsqsum_facts d Hd Hn) as (F & B & A).
  assert (R1 : rel (1 + length d) (fval (fsqsum d)) (0 + sqsum (map fval d))).
  { apply (fsum_sq_rel d 0%float 0); auto; try lia; try lra.
    - apply ffin_0.
    - rewrite fval_0. lra.
    - rewrite fval_0. apply (rel_le 0); [lia|apply rel_refl]. }
  rewrite Rplus_0_l in R1.
  unfold vnorm. fold (fsqsum d). change (@nsqrt F64) with PrimFloat.sqrt.
  destruct (f64_sqrt_val (fsqsum d) F (proj1 B)) as [Fs Es]. rewrite Es.
  replace (length d + 2)%nat with (1 + (1 + length d))%nat by lia.
  eapply rel_trans; [|apply rel_sqrt; [apply sqsum_nonneg|exact R1]].
  apply rnd_rel1. destruct (Req_dec (fval (fsqsum d)) 0) as [Z|NZ]; [left; rewrite Z; apply sqrt_0|right].
  rewrite Rabs_pos_eq by apply sqrt_pos. apply Rle_trans with (bpow radix2 (-537)); [apply bpow_le; lia|].
  rewrite <- (sqrt_bpow (-537)). apply sqrt_le_1_alt. change (-537 + -537)%Z with (-1074)%Z.
  rewrite <- (Rabs_pos_eq (fval (fsqsum d))) by tauto. apply fmt_min; auto. apply fval_format.
Qed.

(** ** The norm of a difference *)
Lemma rsqdist_nonneg a : forall b, 0 <= rsqdist a b.
Proof. induction a as [|s a IH]; intros [|t b]; cbn [rsqdist]; try apply Rle_refl. apply Rplus_le_le_0_compat; [apply Rle_0_sqr|apply IH]. Qed.
Lemma fsub_below (v w : list F64) : fin_below 500 v -> fin_below 500 w -> below501 (fsub v w).
Proof.
  unfold fsub, below501. revert w. induction v as [|x v IH]; intros [|y w] Hv Hw; cbn [zipw]; constructor.
  - destruct (Forall_inv Hv). destruct (Forall_inv Hw). change (@nsub F64 x y) with (PrimFloat.sub x y).
    destruct (fsub_val x y) as (A & _ & _ & B); auto.
  - apply IH; [apply (Forall_inv_tail Hv)|apply (Forall_inv_tail Hw)].
Qed.
Lemma fsub_rel (v w : list F64) : length v = length w -> fin_below 500 v -> fin_below 500 w ->
  rel 2 (sqsum (map fval (fsub v w))) (rsqdist (map fval v) (map fval w)).
Proof.
  unfold fsub. revert w. induction v as [|x v IH]; intros [|y w] L Hv Hw; try discriminate; cbn [zipw map sqsum rsqdist].
  - apply (rel_le 0); [lia|apply rel_refl].
  - destruct (Forall_inv Hv) as [A B]. destruct (Forall_inv Hw) as [C D]. change (@nsub F64 x y) with (PrimFloat.sub x y).
    destruct (fsub_val x y) as (_ & _ & R1 & _); auto.
    apply rel_add.
    + apply Rle_0_sqr.
    + apply rsqdist_nonneg.
    + apply (rel_mul 1 1); auto.
    + apply IH; [injection L; auto|apply (Forall_inv_tail Hv)|apply (Forall_inv_tail Hw)].
Qed.
Lemma fsub_no_tiny e (v w : list F64) : (-511 <= e <= 1000)%Z -> fin_below 500 v -> fin_below 500 w -> apart e v w -> no_tiny (fsub v w).
Proof.
  intros He Hv Hw H. unfold fsub, no_tiny. induction H as [|x y v w H HF IH]; cbn [zipw]; constructor.
  - destruct (Forall_inv Hv) as [A B]. destruct (Forall_inv Hw) as [C D]. change (@nsub F64 x y) with (PrimFloat.sub x y).
    destruct (fsub_val x y) as (_ & E & _ & _); auto. rewrite E.
    destruct H as [->|H]; [left; replace (fval y - fval y) with 0 by ring; apply round_0, valid_rnd_round_mode|right].
    apply rnd_0_le; [lia|]. eapply Rle_trans; [|exact H]. apply bpow_le. lia.
  - apply IH; [apply (Forall_inv_tail Hv)|apply (Forall_inv_tail Hw)].
Qed.
Lemma fsub_len (v w : list F64) : length v = length w -> length (fsub v w) = length v.
Proof. intros L. unfold fsub. apply zipw_len. auto. Qed.

(** The norm of [v - w] with a relative error of k + 4 roundings. *)
Lemma fdist_rel e (v w : list F64) : (-511 <= e <= 1000)%Z -> length v = length w -> (Z.of_nat (length v) <= 2 ^ 20)%Z ->
  fin_below 500 v -> fin_below 500 w -> apart e v w ->
  rel (length v + 4) (fval (vnorm (fsub v w))) (rdist (map fval v) (map fval w)).
Proof.
  intros He L Hn Hv Hw Ha. unfold rdist.
  assert (R1 := fnorm_rel (fsub v w) (fsub_below v w Hv Hw) (fsub_no_tiny e v w He Hv Hw Ha)).
  rewrite fsub_len in R1 by auto. replace (length v + 4)%nat with (length v + 2 + 2)%nat by lia.
  eapply rel_trans; [apply R1; auto|]. apply rel_sqrt; [apply rsqdist_nonneg|]. apply fsub_rel; auto.
Qed.
(** It is zero only if no component differs by more than 2^-536. *)
Lemma fdist_zero (v w : list F64) : length v = length w -> (Z.of_nat (length v) <= 2 ^ 20)%Z ->
  fin_below 500 v -> fin_below 500 w -> fval (vnorm (fsub v w)) <= 0 -> close_to (-536) v w.
Proof.
  intros L Hn Hv Hw Z.
  destruct (fnorm_facts (fsub v w) (fsub_below v w Hv Hw)) as (_ & _ & A); [rewrite fsub_len; auto|].
  assert (B : forall x, In x (fsub v w) -> Rabs (fval x) < bpow radix2 (-537)).
  { intros x Hx. apply Rnot_le_lt. intros K. pose proof (A x (-537)%Z Hx ltac:(lia) K). pose proof (bpow_gt_0 radix2 (-537)). lra. }
  clear A Z Hn. unfold close_to, fsub in *. revert w L Hv Hw B. induction v as [|x v IH]; intros [|y w] L Hv Hw B; try discriminate; constructor.
  - specialize (B _ (or_introl eq_refl)). change (@nsub F64 x y) with (PrimFloat.sub x y) in B.
    destruct (Forall_inv Hv) as [P Q]. destruct (Forall_inv Hw) as [C D]. destruct (fsub_val x y) as (_ & E & _ & _); auto.
    rewrite E in B. apply Rnot_lt_le. intros K. revert B. apply Rle_not_lt. apply rnd_0_le; [lia|].
    apply Rle_trans with (bpow radix2 (-536)); [apply bpow_le; lia|lra].
  - apply IH; [injection L; auto|apply (Forall_inv_tail Hv)|apply (Forall_inv_tail Hw)|]. intros z Hz. apply B. right. auto.
Qed.

(** ** Percentages *)
Definition fpct (y z nd : list F64) : F64 := nmul (ndiv (vnorm (fsub y nd)) (vnorm (fsub z nd))) (nofZ 100).

Lemma f100 : ffin (f64_ofZ 100) /\ fval (f64_ofZ 100) = 100.
Proof. apply f64_ofZ_exact. lia. Qed.

Lemma apart_big e (z nd : list F64) : (-511 <= e <= 501)%Z -> fin_below 500 z -> fin_below 500 nd -> apart e z nd ->
  map fval z <> map fval nd -> exists x, In x (fsub z nd) /\ bpow radix2 e <= Rabs (fval x).
Proof.
  intros He Hz Hn H. unfold fsub. induction H as [|x y v w H HF IH]; intros N; [contradiction N; reflexivity|]. cbn [zipw].
  destruct (Forall_inv Hz) as [A B]. destruct (Forall_inv Hn) as [C D].
  destruct (fsub_val x y) as (_ & E & _ & _); auto.
  destruct H as [H|H].
  - destruct IH as (q & Hq & Bq).
    + apply (Forall_inv_tail Hz).
    + apply (Forall_inv_tail Hn).
    + intros K. apply N. cbn [map]. congruence.
    + exists q. split; [right; auto|auto].
  - exists (PrimFloat.sub x y). split; [left; reflexivity|]. rewrite E. apply rnd_0_le; [lia|auto].
Qed.

Lemma fnorm_pos e (z nd : list F64) : (-511 <= e <= 501)%Z -> length z = length nd -> (Z.of_nat (length z) <= 2 ^ 20)%Z ->
  fin_below 500 z -> fin_below 500 nd -> apart e z nd -> map fval z <> map fval nd ->
  bpow radix2 e <= fval (vnorm (fsub z nd)).
Proof.
  intros He L Hn Hz Hd Ha N. destruct (apart_big e z nd He Hz Hd Ha N) as (x & Hx & Bx).
  destruct (fnorm_facts (fsub z nd) (fsub_below z nd Hz Hd)) as (_ & _ & A); [rewrite fsub_len; auto|].
  apply (A x e Hx); auto. lia.
Qed.

Lemma fpct_close (y z nd : list F64) k : length y = k -> length z = k -> length nd = k -> (Z.of_nat k <= 2 ^ 20)%Z ->
  fin_below 500 y -> fin_below 500 z -> fin_below 500 nd -> apart (-500) y nd -> apart (-500) z nd ->
  map fval z <> map fval nd ->
  approximates (IZR (2 * Z.of_nat k + 10) * bpow radix2 (-52)) (fpct y z nd)
    (100 * rdist (map fval y) (map fval nd) / rdist (map fval z) (map fval nd)).
Proof.
  intros Ly Lz Ln Hk By Bz Bn Ay Az N.
  assert (Pz := fnorm_pos (-500) z nd ltac:(lia) ltac:(congruence) ltac:(congruence) Bz Bn Az N).
  destruct (fnorm_facts (fsub z nd) (fsub_below z nd Bz Bn)) as (Fz & Uz & _); [rewrite fsub_len; congruence|].
  destruct (fnorm_facts (fsub y nd) (fsub_below y nd By Bn)) as (Fy & Uy & _); [rewrite fsub_len; congruence|].
  assert (Ry := fdist_rel (-500) y nd ltac:(lia) ltac:(congruence) ltac:(congruence) By Bn Ay).
  assert (Rz := fdist_rel (-500) z nd ltac:(lia) ltac:(congruence) ltac:(congruence) Bz Bn Az).
  rewrite Ly in Ry. rewrite Lz in Rz.
  unfold fpct. change (@nmul F64) with PrimFloat.mul. change (@ndiv F64) with PrimFloat.div. change (@nofZ F64 100) with (f64_ofZ 100).
  set (a := vnorm (fsub y nd)) in *. set (b := vnorm (fsub z nd)) in *.
  assert (Pb : 0 < fval b) by (pose proof (bpow_gt_0 radix2 (-500)); lra).
  assert (Q0 : 0 <= fval a / fval b) by (apply div_nonneg; lra).
  assert (Q1 : fval a / fval b <= bpow radix2 1011).
  { apply Rmult_le_reg_r with (fval b); auto. unfold Rdiv. rewrite Rmult_assoc, Rinv_l, Rmult_1_r by lra.
    eapply Rle_trans; [apply Uy|]. replace (bpow radix2 511) with (bpow radix2 1011 * bpow radix2 (-500)) by (rewrite <- bpow_plus; reflexivity).
    apply Rmult_le_compat_l; [apply bpow_ge_0|auto]. }
  destruct (f64_div_err a b Fy) as [Fd Ed]; [lra|rewrite Rabs_pos_eq by auto; eapply Rle_trans; [exact Q1|apply bpow_le; lia]|].
  destruct f100 as [F100 E100].
  assert (Lo : fval a = 0 \/ bpow radix2 (-1011) <= fval a / fval b).
  { destruct (list_eq_dec Req_EM_T (map fval y) (map fval nd)) as [Eq|Ne].
    - left. assert (rdist (map fval y) (map fval nd) = 0).
      { rewrite Eq. unfold rdist. replace (rsqdist (map fval nd) (map fval nd)) with 0; [apply sqrt_0|].
        generalize (map fval nd). intros l. induction l as [|s l IH]; cbn [rsqdist]; auto. rewrite <- IH. ring. }
      rewrite H in Ry. apply rel_0 in Ry. auto.
    - right. assert (Pa := fnorm_pos (-500) y nd ltac:(lia) ltac:(congruence) ltac:(congruence) By Bn Ay Ne). fold a in Pa.
      apply Rmult_le_reg_r with (fval b); auto. unfold Rdiv. rewrite Rmult_assoc, Rinv_l, Rmult_1_r by lra.
      eapply Rle_trans; [|exact Pa]. replace (bpow radix2 (-500)) with (bpow radix2 (-1011) * bpow radix2 511) by (rewrite <- bpow_plus; reflexivity).
      apply Rmult_le_compat_l; [apply bpow_ge_0|apply Uz]. }
  assert (Qd : 0 <= rnd (fval a / fval b) <= bpow radix2 1011).
  { split; [apply rnd_nonneg; auto|]. apply rnd_le_fmt; [apply fmt_bpow; lia|auto]. }
  assert (B100 : Rabs (fval (PrimFloat.div a b) * fval (f64_ofZ 100)) <= bpow radix2 1023).
  { rewrite Ed, E100, Rabs_pos_eq by (apply Rmult_le_pos; lra).
    apply Rle_trans with (bpow radix2 1011 * bpow radix2 7); [|rewrite <- bpow_plus; apply bpow_le; lia].
    apply Rmult_le_compat; try lra. change (bpow radix2 7) with 128. lra. }
  destruct (f64_mul_err (PrimFloat.div a b) (f64_ofZ 100) Fd F100 B100) as [Fm Em].
  split; [exact Fm|]. rewrite Em, E100, Ed.
  set (X := rdist (map fval y) (map fval nd)) in *. set (Y := rdist (map fval z) (map fval nd)) in *.
  assert (R1 : rel (1 + (k + 4 + (k + 4))) (rnd (fval a / fval b)) (X / Y)).
  { eapply rel_trans; [|apply rel_div; eauto]. apply rnd_rel1. destruct Lo as [->|Lo]; [left; unfold Rdiv; ring|right].
    rewrite Rabs_pos_eq by auto. eapply Rle_trans; [|exact Lo]. apply bpow_le. lia. }
  assert (R2 : rel (1 + (1 + (k + 4 + (k + 4)))) (rnd (rnd (fval a / fval b) * 100)) (X / Y * 100)).
  { eapply rel_trans.
    - apply rnd_rel1. destruct Lo as [->|Lo].
      + left. unfold Rdiv. rewrite Rmult_0_l, round_0 by apply valid_rnd_round_mode. ring.
      + right. assert (bpow radix2 (-1011) <= rnd (fval a / fval b)) by (apply round_ge_generic; [exact Vex3|apply valid_rnd_round_mode|apply fmt_bpow; lia|auto]).
        rewrite Rabs_pos_eq by lra. apply Rle_trans with (bpow radix2 (-1011)); [apply bpow_le; lia|]. pose proof (bpow_gt_0 radix2 (-1011)). lra.
    - replace (1 + (k + 4 + (k + 4)))%nat with (1 + (k + 4 + (k + 4)) + 0)%nat by lia. apply rel_mul; [exact R1|apply rel_refl]. }
  replace (100 * X / Y) with (X / Y * 100) by (unfold Rdiv; ring).
  replace (IZR (2 * Z.of_nat k + 10) * bpow radix2 (-52)) with (2 * INR (1 + (1 + (k + 4 + (k + 4)))) * u).
  { apply rel_err; [|exact R2]. rewrite INR_IZR_INZ. change u with (/ IZR (2 ^ 53)).
    apply Rmult_le_reg_r with (IZR (2 ^ 53)); [apply IZR_lt; lia|]. rewrite Rmult_assoc, Rinv_l, Rmult_1_r by (apply not_0_IZR; lia).
    apply Rle_trans with (IZR (2 ^ 52)); [apply IZR_le; lia|]. change (2 ^ 53)%Z with (2 * 2 ^ 52)%Z. rewrite mult_IZR. lra. }
  rewrite INR_IZR_INZ. change (-52)%Z with (1 + -53)%Z. rewrite bpow_plus. change (bpow radix2 1) with 2.
  replace (Z.of_nat (1 + (1 + (k + 4 + (k + 4))))) with (2 * Z.of_nat k + 10)%Z by lia. ring.
Qed.

(** The same numbers give the same norm. *)
Lemma fsum_same (d d' : list F64) : Forall2 (fun x y : F64 => fval x = fval y) d d' -> forall (acc acc' : F64) j,
  below501 d -> below501 d' -> (0 <= j)%Z -> (j + Z.of_nat (length d) <= 2 ^ 20)%Z ->
  ffin acc -> ffin acc' -> fval acc = fval acc' -> 0 <= fval acc <= IZR j * bpow radix2 1002 ->
  fval (fold_left (@nadd F64) (map (fun x : F64 => nmul x x) d) acc) = fval (fold_left (@nadd F64) (map (fun x : F64 => nmul x x) d') acc').
Proof.
  induction 1 as [|x y d d' E HF IH]; intros acc acc' j Hd Hd' Hj Hn Fa Fa' Ea Ba; cbn [map fold_left length] in *; auto.
  destruct (Forall_inv Hd) as [Fx Bx]. destruct (fsq_val x Fx Bx) as (Fq & Eq & Pq & Bq).
  destruct (Forall_inv Hd') as [Fx' Bx']. destruct (fsq_val y Fx' Bx') as (Fq' & Eq' & Pq' & Bq').
  change (@nmul F64 x x) with (PrimFloat.mul x x). change (@nadd F64 acc (PrimFloat.mul x x)) with (PrimFloat.add acc (PrimFloat.mul x x)).
  change (@nmul F64 y y) with (PrimFloat.mul y y). change (@nadd F64 acc' (PrimFloat.mul y y)) with (PrimFloat.add acc' (PrimFloat.mul y y)).
  assert (EQ : fval (PrimFloat.mul x x) = fval (PrimFloat.mul y y)) by (rewrite Eq, Eq', E; reflexivity).
  assert (Sm : 0 <= fval acc + fval (PrimFloat.mul x x) <= IZR (j + 1) * bpow radix2 1002).
  { rewrite plus_IZR. lra. }
  assert (Bd : Rabs (fval acc + fval (PrimFloat.mul x x)) <= bpow radix2 1023).
  { rewrite Rabs_pos_eq by tauto. eapply Rle_trans; [apply Sm|].
    apply Rle_trans with (bpow radix2 20 * bpow radix2 1002).
    - apply Rmult_le_compat_r; [apply bpow_ge_0|]. change (bpow radix2 20) with (IZR (2 ^ 20)). apply IZR_le. lia.
    - rewrite <- bpow_plus. apply bpow_le. lia. }
  destruct (f64_add_err acc (PrimFloat.mul x x) Fa Fq Bd) as [F2 E2].
  destruct (f64_add_err acc' (PrimFloat.mul y y) Fa' Fq') as [F2' E2']; [rewrite <- Ea, <- EQ; exact Bd|].
  apply (IH _ _ (j + 1)%Z); try lia; auto.
  - apply (Forall_inv_tail Hd).
  - apply (Forall_inv_tail Hd').
  - rewrite E2, E2', Ea, EQ. reflexivity.
  - rewrite E2. split; [apply rnd_nonneg; tauto|]. apply rnd_le_fmt; [apply fmt_mult; lia|tauto].
Qed.
Lemma fnorm_same d d' : Forall2 (fun x y : F64 => fval x = fval y) d d' -> below501 d -> below501 d' -> (Z.of_nat (length d) <= 2 ^ 20)%Z ->
  fval (vnorm d) = fval (vnorm d').
Proof.
  intros H Hd Hd' Hn. assert (L := Forall2_len _ _ _ H).
  destruct (fsqsum_facts d Hd Hn) as (F & B & _). destruct (fsqsum_facts d' Hd') as (F' & B' & _); [rewrite <- L; auto|].
  assert (E : fval (fsqsum d) = fval (fsqsum d')).
  { apply (fsum_same d d' H 0%float 0%float 0); auto; try lia; try apply ffin_0. rewrite fval_0. lra. }
  unfold vnorm. fold (fsqsum d) (fsqsum d'). change (@nsqrt F64) with PrimFloat.sqrt.
  destruct (f64_sqrt_val (fsqsum d) F (proj1 B)) as [_ ->]. destruct (f64_sqrt_val (fsqsum d') F' (proj1 B')) as [_ ->]. rewrite E. reflexivity.
Qed.
Lemma fsub_same (v v' w : list F64) : Forall2 (fun x y : F64 => fval x = fval y) v v' -> fin_below 500 v -> fin_below 500 v' -> fin_below 500 w ->
  Forall2 (fun x y : F64 => fval x = fval y) (fsub v w) (fsub v' w).
Proof.
  intros H. unfold fsub. revert w. induction H as [|x y v v' E H IH]; intros [|z w] Hv Hv' Hw; cbn [zipw]; constructor.
  - destruct (Forall_inv Hv) as [A B]. destruct (Forall_inv Hv') as [A' B']. destruct (Forall_inv Hw) as [C D].
    change (@nsub F64 x z) with (PrimFloat.sub x z). change (@nsub F64 y z) with (PrimFloat.sub y z).
    destruct (fsub_val x z) as (_ & -> & _); auto. destruct (fsub_val y z) as (_ & -> & _); auto. rewrite E. reflexivity.
  - apply IH; [apply (Forall_inv_tail Hv)|apply (Forall_inv_tail Hv')|apply (Forall_inv_tail Hw)].
Qed.
(** On the last step the percentage is exactly 100. *)
Lemma fpct_100 (y z nd : list F64) k : length z = k -> length nd = k -> (Z.of_nat k <= 2 ^ 20)%Z ->
  Forall2 (fun x y : F64 => fval x = fval y) y z -> fin_below 500 y -> fin_below 500 z -> fin_below 500 nd ->
  ~ close_to (-536) z nd -> PrimFloat.eqb (fpct y z nd) (f64_ofZ 100) = true.
Proof.
  intros Lz Ln Hk S By Bz Bn N.
  assert (Ly : length y = k) by (rewrite <- Lz; apply (Forall2_len _ _ _ S)).
  destruct (fnorm_facts (fsub z nd) (fsub_below z nd Bz Bn)) as (Fz & Uz & _); [rewrite fsub_len; congruence|].
  destruct (fnorm_facts (fsub y nd) (fsub_below y nd By Bn)) as (Fy & Uy & _); [rewrite fsub_len; congruence|].
  assert (E := fnorm_same _ _ (fsub_same y z nd S By Bz Bn) (fsub_below y nd By Bn) (fsub_below z nd Bz Bn)).
  rewrite fsub_len in E by congruence. rewrite Ly in E. specialize (E Hk).
  assert (P : fval (vnorm (fsub z nd)) <> 0).
  { intros Z. apply N. apply fdist_zero; try congruence; auto. lra. }
  unfold fpct. change (@nmul F64) with PrimFloat.mul. change (@ndiv F64) with PrimFloat.div. change (@nofZ F64 100) with (f64_ofZ 100).
  destruct f100 as [F100 E100].
  assert (Q : fval (vnorm (fsub y nd)) / fval (vnorm (fsub z nd)) = 1) by (rewrite E; field; auto).
  destruct (f64_div_err _ _ Fy P) as [Fd Ed].
  { rewrite Q, Rabs_R1. change 1 with (bpow radix2 0). apply bpow_le. lia. }
  rewrite Q in Ed. rewrite <- fval_1, round_fval, fval_1 in Ed.
  destruct (f64_mul_exact _ (f64_ofZ 100) (f64_ofZ 100) Fd F100) as [Fm Em]; [rewrite Ed; ring|].
  apply f64_eqb_val; auto.
Qed.

(** ** The nearest row *)
Lemma fabs_val (x : F64) : ffin x -> ffin (PrimFloat.abs x) /\ fval (PrimFloat.abs x) = Rabs (fval x).
Proof. unfold ffin, fval. rewrite !is_finite_equiv, abs_equiv, is_finite_Babs, B2R_Babs. auto. Qed.
Lemma below_abs d : below501 d -> below501 (map (@nabs F64) d).
Proof.
  intros H. unfold below501. rewrite Forall_map. eapply Forall_impl; [|exact H]. cbn. intros x [F B].
  destruct (fabs_val x F) as [F' E]. rewrite E, Rabs_Rabsolu. auto.
Qed.
Lemma fnorm_abs_zero (v w : list F64) : length v = length w -> (Z.of_nat (length v) <= 2 ^ 20)%Z ->
  fin_below 500 v -> fin_below 500 w -> fval (vnorm (map (@nabs F64) (fsub v w))) <= 0 -> close_to (-536) v w.
Proof.
  intros L Hn Hv Hw Z. assert (HB := fsub_below v w Hv Hw).
  destruct (fnorm_facts (map (@nabs F64) (fsub v w)) (below_abs _ HB)) as (_ & _ & A); [rewrite map_length, fsub_len; auto|].
  apply fdist_zero; auto.
  destruct (fnorm_facts (fsub v w) HB) as (_ & P & _); [rewrite fsub_len; auto|].
  assert (E : fval (vnorm (fsub v w)) = fval (vnorm (map (@nabs F64) (fsub v w)))); [|lra].
  clear A P Z.
  assert (L2 : (Z.of_nat (length (fsub v w)) <= 2 ^ 20)%Z) by (rewrite fsub_len; auto).
  revert HB L2. generalize (fsub v w). clear. intros d HB L2.
  assert (E : map (fun x : F64 => nmul x x) (map (@nabs F64) d) = map (fun x : F64 => nmul x x) (map (@nabs F64) d)) by reflexivity.
  destruct (fsqsum_facts d HB L2) as (F & B & _). destruct (fsqsum_facts (map (@nabs F64) d) (below_abs _ HB)) as (F' & B' & _); [rewrite map_length; auto|].
  assert (S : forall (acc acc' : F64) j, (0 <= j)%Z -> (j + Z.of_nat (length d) <= 2 ^ 20)%Z -> ffin acc -> ffin acc' -> fval acc = fval acc' -> 0 <= fval acc <= IZR j * bpow radix2 1002 ->
    fval (fold_left (@nadd F64) (map (fun x : F64 => nmul x x) d) acc) = fval (fold_left (@nadd F64) (map (fun x : F64 => nmul x x) (map (@nabs F64) d)) acc')).
  { clear E F B F' B' L2. induction d as [|x d IH]; intros acc acc' j Hj Hn Fa Fa' Ea Ba; cbn [map fold_left length] in *; auto.
    destruct (Forall_inv HB) as [Fx Bx]. destruct (fabs_val x Fx) as [Fx' Ex']. destruct (fsq_val x Fx Bx) as (Fq & Eq & Pq & Bq).
    destruct (fsq_val (PrimFloat.abs x) Fx') as (Fq' & Eq' & Pq' & Bq'); [rewrite Ex', Rabs_Rabsolu; auto|].
    change (@nabs F64 x) with (PrimFloat.abs x).
    change (@nmul F64 x x) with (PrimFloat.mul x x). change (@nadd F64 acc (PrimFloat.mul x x)) with (PrimFloat.add acc (PrimFloat.mul x x)).
    change (@nmul F64 (PrimFloat.abs x) (PrimFloat.abs x)) with (PrimFloat.mul (PrimFloat.abs x) (PrimFloat.abs x)).
    change (@nadd F64 acc' (PrimFloat.mul (PrimFloat.abs x) (PrimFloat.abs x))) with (PrimFloat.add acc' (PrimFloat.mul (PrimFloat.abs x) (PrimFloat.abs x))).
    assert (EQ : fval (PrimFloat.mul x x) = fval (PrimFloat.mul (PrimFloat.abs x) (PrimFloat.abs x))).
    { rewrite Eq, Eq', Ex'. rewrite <- Rabs_mult, (Rabs_pos_eq (fval x * fval x)) by apply Rle_0_sqr. reflexivity. }
    assert (Sm : 0 <= fval acc + fval (PrimFloat.mul x x) <= IZR (j + 1) * bpow radix2 1002).
    { rewrite plus_IZR. lra. }
    assert (Bd : Rabs (fval acc + fval (PrimFloat.mul x x)) <= bpow radix2 1023).
    { rewrite Rabs_pos_eq by tauto. eapply Rle_trans; [apply Sm|].
      apply Rle_trans with (bpow radix2 20 * bpow radix2 1002).
      - apply Rmult_le_compat_r; [apply bpow_ge_0|]. change (bpow radix2 20) with (IZR (2 ^ 20)). apply IZR_le. lia.
      - rewrite <- bpow_plus. apply bpow_le. lia. }
    destruct (f64_add_err acc (PrimFloat.mul x x) Fa Fq Bd) as [F2 E2].
    destruct (f64_add_err acc' (PrimFloat.mul (PrimFloat.abs x) (PrimFloat.abs x)) Fa' Fq') as [F2' E2']; [rewrite <- Ea, <- EQ; exact Bd|].
    apply (IH (Forall_inv_tail HB) _ _ (j + 1)%Z); try lia; auto.
    - rewrite E2, E2', Ea, EQ. reflexivity.
    - rewrite E2. split; [apply rnd_nonneg; tauto|]. apply rnd_le_fmt; [apply fmt_mult; lia|tauto]. }
  unfold vnorm. fold (fsqsum d) (fsqsum (map (@nabs F64) d)). change (@nsqrt F64) with PrimFloat.sqrt.
  destruct (f64_sqrt_val _ F (proj1 B)) as [_ ->]. destruct (f64_sqrt_val _ F' (proj1 B')) as [_ ->].
  replace (fval (fsqsum (map (@nabs F64) d))) with (fval (fsqsum d)); [reflexivity|].
  apply (S 0%float 0%float 0%Z); try lia; try apply ffin_0; auto. rewrite fval_0. lra.
Qed.
Lemma fnorm_abs_same (v w : list F64) : (Z.of_nat (length v) <= 2 ^ 20)%Z -> fin_below 500 v -> fin_below 500 w ->
  Forall2 (fun x y : F64 => fval x = fval y) v w -> fval (vnorm (map (@nabs F64) (fsub v w))) = 0.
Proof.
  intros Hn Hv Hw H. assert (L := Forall2_len _ _ _ H). assert (HB := fsub_below v w Hv Hw).
  assert (Z : Forall (fun x : F64 => fval x = 0) (map (@nabs F64) (fsub v w))).
  { clear HB L Hn. unfold fsub. induction H as [|x y v w E H IH]; cbn [zipw map]; constructor.
    - destruct (Forall_inv Hv) as [A B]. destruct (Forall_inv Hw) as [C D]. change (@nsub F64 x y) with (PrimFloat.sub x y). change (@nabs F64) with PrimFloat.abs.
      destruct (fsub_val x y) as (F & Es & _); auto. destruct (fabs_val _ F) as [_ ->]. rewrite Es, E.
      replace (fval y - fval y) with 0 by ring. rewrite round_0 by apply valid_rnd_round_mode. apply Rabs_R0.
    - apply IH; [apply (Forall_inv_tail Hv)|apply (Forall_inv_tail Hw)]. }
  assert (R1 : rel (length (map (@nabs F64) (fsub v w)) + 2) (fval (vnorm (map (@nabs F64) (fsub v w)))) (R_sqrt.sqrt (sqsum (map fval (map (@nabs F64) (fsub v w)))))).
  { apply fnorm_rel; [apply below_abs; auto| |rewrite map_length, fsub_len; auto]. eapply Forall_impl; [|exact Z]. cbn. auto. }
  replace (sqsum (map fval (map (@nabs F64) (fsub v w)))) with 0 in R1.
  - rewrite sqrt_0 in R1. apply rel_0 in R1. exact R1.
  - clear -Z. revert Z. generalize (map (@nabs F64) (fsub v w)). intros l. induction l as [|x l IH]; intros Z; cbn [map sqsum]; auto.
    rewrite (Forall_inv Z), <- IH by apply (Forall_inv_tail Z). ring.
Qed.
Lemma nearest_row (F : list (list F64)) (p : list F64) k j0 row0 i : (Z.of_nat k <= 2 ^ 20)%Z ->
  Forall (fun r => length r = k /\ fin_below 500 r) F -> length p = k -> fin_below 500 p ->
  nth_error F j0 = Some row0 -> Forall2 (fun x y : F64 => fval x = fval y) p row0 ->
  npargmin (map (fun row => vnorm (map (@nabs F64) (fsub row p))) F) = Ok i ->
  exists row, nth_error F i = Some row /\ close_to (-536) row p.
Proof.
  intros Hk HF Lp Bp H0 S H.
  assert (NF : forall r, In r F -> ffin (vnorm (map (@nabs F64) (fsub r p))) /\ 0 <= fval (vnorm (map (@nabs F64) (fsub r p)))).
  { intros r Hr. rewrite Forall_forall in HF. destruct (HF r Hr) as [Lr Br].
    destruct (fnorm_facts (map (@nabs F64) (fsub r p)) (below_abs _ (fsub_below r p Br Bp))) as (A & B & _); [rewrite map_length, fsub_len; congruence|]. tauto. }
  assert (NN : nan_free (map (fun row => vnorm (map (@nabs F64) (fsub row p))) F)).
  { unfold nan_free. rewrite Forall_map. apply Forall_forall. intros r Hr. apply ffin_notnan. apply NF. auto. }
  destruct (npargmin_ok F64_ord _ _ NN H) as (x & Hx & Hmin).
  rewrite nth_error_map in Hx. destruct (nth_error F i) as [row|] eqn:Er; [|discriminate]. injection Hx as <-.
  exists row. split; auto.
  destruct (Hmin j0 (vnorm (map (@nabs F64) (fsub row0 p)))) as [Hle _].
  { rewrite nth_error_map, H0. reflexivity. }
  rewrite Forall_forall in HF. destruct (HF row (nth_error_In _ _ Er)) as [Lr Br]. destruct (HF row0 (nth_error_In _ _ H0)) as [L0 B0].
  destruct (NF row (nth_error_In _ _ Er)) as [F1 P1]. destruct (NF row0 (nth_error_In _ _ H0)) as [F2 P2].
  assert (Hle2 : PrimFloat.leb (vnorm (map (@nabs F64) (fsub row p))) (vnorm (map (@nabs F64) (fsub row0 p))) = true) by exact Hle.
  clear Hle. rename Hle2 into Hle. rewrite (f64_leb_val _ _ F1 F2) in Hle.
  assert (Z : fval (vnorm (map (@nabs F64) (fsub row0 p))) = 0).
  { apply fnorm_abs_same; auto; [congruence|]. clear -S. induction S; constructor; auto. }
  rewrite Z in Hle. apply fnorm_abs_zero; try congruence; auto.
  apply Rnot_lt_le. intros K. rewrite (Rle_bool_false _ _ K) in Hle. discriminate.
Qed.
