(** * IEEE doubles: consequences of correct rounding (through Flocq). *)
From Coq Require Import ZArith Reals Floats Lra Bool.
From Flocq Require Import Core BinarySingleNaN PrimFloat Plus_error.
Local Open Scope R_scope.

Lemma sign_le (x : binary_float FloatOps.prec FloatOps.emax) : is_finite x = true -> if Bsign x then B2R x <= 0 else 0 <= B2R x.
Proof.
  destruct x as [s|s| |s m e B]; cbn; try discriminate; intros _; destruct s; try lra.
  - apply F2R_le_0. cbn. discriminate.
  - apply F2R_ge_0. cbn. discriminate.
Qed.

(** The sign of a difference of finite doubles is exact, even when it rounds, underflows or overflows. *)
Lemma f64_sub_nonneg (x y : PrimFloat.float) : PrimFloat.is_finite x = true -> PrimFloat.is_finite y = true ->
  PrimFloat.leb 0%float (PrimFloat.sub y x) = PrimFloat.leb x y.
Proof.
  rewrite !is_finite_equiv, !leb_equiv, sub_equiv. intros Fx Fy.
  set (X := Prim2B x) in *. set (Y := Prim2B y) in *.
  assert (E0 : Prim2B 0%float = B754_zero false) by (change 0%float with zero; rewrite zero_equiv; apply Prim2B_B2Prim).
  rewrite E0. rewrite (Bleb_correct _ _ X Y Fx Fy).
  pose proof (Bminus_correct _ _ Hprec Hmax mode_NE Y X Fy Fx) as H.
  set (r := round radix2 _ _ _) in H.
  assert (Fz : is_finite (B754_zero false : binary_float FloatOps.prec FloatOps.emax) = true) by reflexivity.
  assert (Vx : generic_format radix2 (SpecFloat.fexp FloatOps.prec FloatOps.emax) (B2R X)) by apply generic_format_B2R.
  assert (Vy : generic_format radix2 (SpecFloat.fexp FloatOps.prec FloatOps.emax) (B2R Y)) by apply generic_format_B2R.
  assert (Vex : Valid_exp (SpecFloat.fexp FloatOps.prec FloatOps.emax)) by (apply (fexp_correct FloatOps.prec FloatOps.emax); exact Hprec).
  assert (Pos : B2R X <= B2R Y -> 0 <= r).
  { intros L. unfold r. apply round_ge_generic; auto. apply valid_rnd_round_mode. apply generic_format_0. lra. }
  assert (Neg : B2R Y < B2R X -> r < 0).
  { intros L. assert (r <= 0). { unfold r. apply round_le_generic; auto. apply valid_rnd_round_mode. apply generic_format_0. lra. }
    assert (r <> 0). { unfold r. replace (B2R Y - B2R X) with (B2R Y + (- B2R X)) by ring.
      apply round_plus_neq_0; auto. { apply monotone_exp_not_FTZ; [exact Vex|]. apply (fexp_monotone FloatOps.prec FloatOps.emax). } apply valid_rnd_round_mode. apply generic_format_opp. auto. lra. }
    lra. }
  destruct (Rlt_bool (Rabs r) (bpow radix2 FloatOps.emax)) eqn:Eo.
  - destruct H as (HR & HF & _). rewrite (Bleb_correct _ _ _ _ Fz HF), HR. cbn [B2R].
    destruct (Rle_bool_spec (B2R X) (B2R Y)) as [L|L].
    + apply Rle_bool_true. auto.
    + apply Rle_bool_false. auto.
  - destruct H as (HS & Hsg).
    set (D := Bminus mode_NE Y X) in *.
    assert (HD : D = B754_infinity (Bsign Y)).
    { apply B2SF_inj. rewrite HS. reflexivity. }
    rewrite HD.
    assert (SX := sign_le _ Fx). assert (SY := sign_le _ Fy). rewrite Hsg in SY |- *.
    destruct (Bsign X); cbn [negb] in *.
    + rewrite Rle_bool_true by lra. reflexivity.
    + rewrite Rle_bool_false; [reflexivity|]. destruct (Rle_lt_dec (B2R X) (B2R Y)) as [L|L]; auto. exfalso.
      assert (Er : r = 0). { unfold r. replace (B2R Y - B2R X) with 0 by lra. apply round_0. apply valid_rnd_round_mode. }
      rewrite Er, Rabs_R0 in Eo. pose proof (bpow_gt_0 radix2 FloatOps.emax).
      rewrite Rlt_bool_true in Eo; [discriminate|lra].
Qed.
