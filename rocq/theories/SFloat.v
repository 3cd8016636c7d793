(** * Vocabulary of the statements about IEEE doubles.
    [fval x] is the real number a finite double [x] stands for, [ffin x] says that
    it is finite (F64Sums.v); [bpow radix2 e] is 2^e. *)
From Coq Require Import ZArith Reals Floats List.
From Flocq Require Import Core.
From Verif Require Import Num NumF64 F64Sums.
Import ListNotations.
Local Open Scope R_scope.

(** Finite numbers of absolute value at most 2^e. *)
Definition fin_below (e : Z) (v : list F64) : Prop :=
  Forall (fun x => ffin x /\ Rabs (fval x) <= bpow radix2 e) v.

(** The same numbers ([==] in Python: 0.0 and -0.0 are the same). *)
Definition same_numbers (v w : list F64) : Prop := Forall2 (fun x y => PrimFloat.eqb x y = true) v w.

(** [v] is, up to the rounding of a few operations, the point that lies on the
    segment from [p] to [z] a 1/n of the way: every component of [v] is finite and
    has a relative error of at most 2^-51 (with respect to the combination of the
    absolute values; numbers below 2^-1022 lose precision, hence the last term). *)
Definition rounded_step (n : Z) (p z v : list F64) : Prop :=
  length p = length v /\ length z = length v /\
  forall j a b x, nth_error p j = Some a -> nth_error z j = Some b -> nth_error v j = Some x ->
    ffin x /\
    Rabs (fval x - (IZR (n - 1) / IZR n * fval a + 1 / IZR n * fval b)) <=
      bpow radix2 (-51) * (IZR (n - 1) / IZR n * Rabs (fval a) + 1 / IZR n * Rabs (fval b)) + bpow radix2 (-1073).

(** Every pair of components is equal or differs by at least 2^e. *)
Definition apart (e : Z) (v w : list F64) : Prop :=
  Forall2 (fun x y => fval x = fval y \/ bpow radix2 e <= Rabs (fval x - fval y)) v w.

(** Every pair of components differs by at most 2^e. *)
Definition close_to (e : Z) (v w : list F64) : Prop :=
  Forall2 (fun x y => Rabs (fval x - fval y) <= bpow radix2 e) v w.

(** The double [d] approximates [x] with relative error [e]. *)
Definition approximates (e : R) (d : F64) (x : R) : Prop := ffin d /\ Rabs (fval d - x) <= e * Rabs x.
