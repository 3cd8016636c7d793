(** * NAUTILUS in IEEE doubles: the vocabulary of C45. *)
From Coq Require Import ZArith List Reals Floats.
From Flocq Require Import Core.
From Verif Require Import Num NumF64 Py Np Spec F64Sums SFloat MNautilus SNautilus.
Import ListNotations.

(** Every component of [a] is a number at most [c] above that of [b]. *)
Definition exceeds_by (c : R) (a b : list F64) : Prop := Forall2 (fun x y => (fval x <= fval y + c)%R) a b.
(** The rounding error of one step for numbers up to 2^e. *)
Definition step_slack (e : Z) : R := (bpow radix2 (-49) * bpow radix2 e)%R.
(** The number of iterations asked for is a double. *)
Definition counts_exact (v : nt_variant F64) (q : nt_request F64) (d : nt_dict F64) : Prop :=
  any_answers v q d /\ forall o m, nd_n d = Some o -> as_int o = Some m -> (m <= 2 ^ 53)%Z.
