(** * Specification vocabulary for the front representation in IEEE doubles (C109). *)
From Coq Require Import ZArith Reals List.
From Flocq Require Import Core.
From Verif Require Import Num NumF64 Py MSolvers SSolvers F64Sums.
Import ListNotations.
Local Open Scope R_scope.

(** [math.ceil] on doubles. *)
Definition double_ceil (e : sv_env F64) : Prop := forall x, ffin x -> exists c, sv_ceil e x = Ok c /\ is_ceil (fval x) c.

(** One axis from [L] to [U] with step [S] and offset [E] for which rounding does no
    harm: no number is extremely large or small, the offset is at least 2^-48 of the
    size of the numbers, and there are at most 2^52 steps. *)
Record good_axis (E L U S : R) : Prop := {
  ga_S : 0 < S <= bpow radix2 500;
  ga_E : bpow radix2 (-500) <= E <= bpow radix2 500;
  ga_LU : L <= U;
  ga_L : Rabs L <= bpow radix2 500;
  ga_U : Rabs U <= bpow radix2 500;
  ga_M : Rabs L + Rabs U + E <= bpow radix2 48 * E;
  ga_W : U - L + E <= bpow radix2 52 * S }.
Inductive good_axes (E : R) : list R -> list R -> list R -> Prop :=
| gx_nil : good_axes E [] [] []
| gx_cons l u s lo up ss : good_axis E l u s -> good_axes E lo up ss -> good_axes E (l :: lo) (u :: up) (s :: ss).

(** Numbers of steps that do not lead beyond the upper end by more than [B]. *)
Inductive counted (B : R) : list R -> list R -> list R -> list nat -> Prop :=
| ct_nil : counted B [] [] [] []
| ct_cons l u s k lo up ss ks : INR k * s <= u - l + B -> counted B lo up ss ks -> counted B (l :: lo) (u :: up) (s :: ss) (k :: ks).
(** [z] is, up to [t], the point that many steps above the lower end. *)
Inductive near_grid (t : R) : list R -> list R -> list nat -> list F64 -> Prop :=
| ng_nil : near_grid t [] [] [] []
| ng_cons l s k x lo ss ks z : ffin x -> Rabs (fval x - (l + INR k * s)) <= t -> near_grid t lo ss ks z ->
    near_grid t (l :: lo) (s :: ss) (k :: ks) (x :: z).
(** A step given as a float or as an array. *)
Definition step_isF (k : nat) (st : sv_step F64) (ss : list F64) : Prop :=
  length ss = k /\ (st = StArr ss \/ exists s, st = StFloat s /\ ss = repeat s k).
