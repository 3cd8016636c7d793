(** * IEEE doubles: multiplying by 0 and 1 and adding 0 is exact (through Flocq). *)
From Coq Require Import ZArith Reals Floats Lra Bool List Lia.
From Flocq Require Import Core BinarySingleNaN PrimFloat.
From Verif Require Import Num NumF64.
Import ListNotations.
Local Open Scope R_scope.

Definition fval (x : PrimFloat.float) : R := B2R (Prim2B x).
Definition ffin (x : PrimFloat.float) : Prop := PrimFloat.is_finite x = true.

Local Instance Vex : Valid_exp (SpecFloat.fexp FloatOps.prec FloatOps.emax) := fexp_correct FloatOps.prec FloatOps.emax Hprec.

Lemma fval_format x : generic_format radix2 (SpecFloat.fexp FloatOps.prec FloatOps.emax) (fval x).
Proof. apply generic_format_B2R. Qed.
Lemma round_fval x : round radix2 (SpecFloat.fexp FloatOps.prec FloatOps.emax) (round_mode mode_NE) (fval x) = fval x.
Proof. apply round_generic; [apply valid_rnd_round_mode|apply fval_format]. Qed.
Lemma fval_small x : Rlt_bool (Rabs (fval x)) (bpow radix2 FloatOps.emax) = true.
Proof. apply Rlt_bool_true. apply abs_B2R_lt_emax. Qed.

(** A product or sum whose exact value is that of the double [r] is exact. *)
Lemma f64_mul_exact x y r : ffin x -> ffin y -> fval x * fval y = fval r -> ffin (PrimFloat.mul x y) /\ fval (PrimFloat.mul x y) = fval r.
Proof.
  unfold ffin, fval at 4. rewrite !is_finite_equiv, mul_equiv. intros Fx Fy E.
  pose proof (Bmult_correct _ _ Hprec Hmax mode_NE (Prim2B x) (Prim2B y)) as H.
  fold (fval x) (fval y) in H. rewrite E, round_fval, fval_small in H. destruct H as (H1 & H2 & _).
  split; [rewrite H2, Fx, Fy; reflexivity|exact H1].
Qed.
Lemma f64_add_exact x y r : ffin x -> ffin y -> fval x + fval y = fval r -> ffin (PrimFloat.add x y) /\ fval (PrimFloat.add x y) = fval r.
Proof.
  unfold ffin, fval at 4. rewrite !is_finite_equiv, add_equiv. intros Fx Fy E.
  pose proof (Bplus_correct _ _ Hprec Hmax mode_NE (Prim2B x) (Prim2B y) Fx Fy) as H.
  fold (fval x) (fval y) in H. rewrite E, round_fval, fval_small in H. destruct H as (H1 & H2 & _). auto.
Qed.
Lemma f64_sub_exact x y r : ffin x -> ffin y -> fval x - fval y = fval r -> ffin (PrimFloat.sub x y) /\ fval (PrimFloat.sub x y) = fval r.
Proof.
  unfold ffin, fval at 4. rewrite !is_finite_equiv, sub_equiv. intros Fx Fy E.
  pose proof (Bminus_correct _ _ Hprec Hmax mode_NE (Prim2B x) (Prim2B y) Fx Fy) as H.
  fold (fval x) (fval y) in H. rewrite E, round_fval, fval_small in H. destruct H as (H1 & H2 & _). auto.
Qed.

Lemma fval_0 : fval 0%float = 0.
Proof. unfold fval. change 0%float with zero. rewrite zero_equiv, Prim2B_B2Prim. reflexivity. Qed.
Lemma ffin_0 : ffin 0%float.
Proof. reflexivity. Qed.
Lemma fval_1 : fval 1%float = 1.
Proof.
  unfold fval. change 1%float with one. rewrite one_equiv, Prim2B_B2Prim.
  apply (Bone_correct FloatOps.prec FloatOps.emax).
Qed.
Lemma ffin_1 : ffin 1%float.
Proof. reflexivity. Qed.
Lemma f64_leb_val x y : ffin x -> ffin y -> PrimFloat.leb x y = Rle_bool (fval x) (fval y).
Proof. unfold ffin. rewrite !is_finite_equiv, leb_equiv. intros. apply Bleb_correct; auto. Qed.
Lemma f64_eqb_val x y : ffin x -> ffin y -> (PrimFloat.eqb x y = true <-> fval x = fval y).
Proof.
  unfold ffin. rewrite !is_finite_equiv, eqb_equiv. intros Fx Fy. rewrite (Beqb_correct _ _ _ _ Fx Fy).
  fold (fval x) (fval y). destruct (Req_bool_spec (fval x) (fval y)); split; auto; discriminate.
Qed.
Lemma ffin_notnan x : ffin x -> @nisnan F64 x = false.
Proof. intros F. unfold nisnan. cbn. rewrite (proj2 (f64_eqb_val x x F F) eq_refl). reflexivity. Qed.

Lemma f64_isnan_B x : @nisnan F64 x = BinarySingleNaN.is_nan (Prim2B x).
Proof. unfold nisnan. cbn. rewrite <- is_nan_equiv. reflexivity. Qed.
(** Finite: [x - x] is a number. *)
Lemma ffin_sub x : ffin x <-> @nisnan F64 (PrimFloat.sub x x) = false.
Proof.
  split.
  - intros F. apply ffin_notnan. apply (f64_sub_exact x x 0%float F F). rewrite fval_0. lra.
  - rewrite f64_isnan_B, sub_equiv. unfold ffin. rewrite is_finite_equiv.
    destruct (Prim2B x) as [s|s| |s m e0 B]; cbn; auto. destruct s; cbn; discriminate.
Qed.
