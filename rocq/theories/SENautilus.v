(** * E-NAUTILUS: vocabulary of the statements about sessions in any arithmetic (C13). *)
From Coq Require Import ZArith List Bool Reals Floats.
From Flocq Require Import Core.
From Verif Require Import Num NumF64 Py Np Spec MENautilus F64Sums.
Import ListNotations.

Section Any.
  Context {N : NumOps}.
  Notation vec := (list N).
  Variables (F : list vec) (ideal nd : vec) (vars : option (list vec)).

  (** The clustering answers whenever it is asked for fewer clusters than rows, with
      that many valid row positions. *)
  Definition clusters (km : @km_oracle N) : Prop :=
    (forall rows n cl, km rows n = Ok cl -> Z.of_nat (length cl) = n /\ Forall (fun i => i < length rows) cl) /\
    (forall rows n, (1 <= n < Z.of_nat (length rows))%Z -> exists cl, km rows n = Ok cl).

  (** The answer moves forward to the shown point [y]; [n'] iterations are left then. *)
  Definition moves_to (c : en_content N) (d : en_dict N) (y : vec) (n' : Z) : Prop :=
    d_step_back d = Some false /\
    (exists i, d_index d = Some i /\ (0 <= i)%Z /\ nth_error (ec_points c) (Z.to_nat i) = Some y) /\
    (d_change d = Some false /\ n' = (ec_left c - 1)%Z \/
     d_change d = Some true /\ d_iterations_left d = Some n' /\ (1 <= n')%Z).

  (** The point the method computes a 1/n of the way from [p] to [z]. *)
  Definition towards (n : Z) (p z : vec) : vec :=
    zipw (fun a b => nadd (nmul (ndiv (nofZ (n - 1)) (nofZ n)) a) (nmul (ndiv (nofZ 1) (nofZ n)) b)) p z.

  (** Rounding does no harm at [p] with [n] iterations left: the point computed on the
      way to any front row below [p] lies between that row and [p]. *)
  Definition stays_between (n : Z) (p : vec) : Prop :=
    forall z, In z F -> vle z p -> vle z (towards n p z) /\ vle (towards n p z) p.

  (** Sessions that only move forward and in which rounding does no harm. *)
  Inductive session : en_state N -> en_request N -> Prop :=
  | session_init km d s q :
      clusters km -> en_validate_init d = Ok tt ->
      (forall n, option_map as_int (d_n_iterations d) = Some (Some n) -> stays_between n nd) ->
      en_iterate km (en_start (en_init F ideal nd vars)) (Some d) (en_init F ideal nd vars) = (s, Ok q) ->
      session s q
  | session_step km mi c d y n' s s' q :
      session s (EReq mi c) -> clusters km -> moves_to c d y n' ->
      ((1 < ec_left c)%Z -> stays_between n' y) ->
      en_iterate km (EReq mi c) (Some d) s = (s', Ok q) ->
      session s' q.

  (** Sessions that only move forward, with no condition on the answers but that the
      index designates a shown point and a changed count is positive. *)
  Inductive forward_session : en_state N -> en_request N -> Prop :=
  | forward_init km d s q :
      en_validate_init d = Ok tt ->
      en_iterate km (en_start (en_init F ideal nd vars)) (Some d) (en_init F ideal nd vars) = (s, Ok q) ->
      forward_session s q
  | forward_step km mi c d y n' s s' q :
      forward_session s (EReq mi c) -> moves_to c d y n' ->
      en_iterate km (EReq mi c) (Some d) s = (s', Ok q) ->
      forward_session s' q.

  (** The bounds the request reports for the point the answer chooses. *)
  Definition chosen_bounds (c : en_content N) (d : en_dict N) (lb ub : vec) : Prop :=
    exists i, d_index d = Some i /\ nth_error (ec_lb c) (Z.to_nat i) = Some lb /\ nth_error (ec_ub c) (Z.to_nat i) = Some ub.
End Any.

Local Open Scope R_scope.
(** The doubles [z] lie below [p], in every component by a margin that is large
    compared with the rounding of the numbers involved: n * 2^-51 of the larger one
    (and n * 2^-1073 for tiny numbers). *)
Definition clearly_below (n : Z) (z p : list F64) : Prop :=
  Forall2 (fun b a => IZR n * (bpow radix2 (-51) * Rmax (Rabs (fval a)) (Rabs (fval b)) + bpow radix2 (-1073)) <= fval a - fval b) z p.

(** Halving the double is exact: it is 0 or at least 2^-1021. *)
Definition halvable (x : F64) : Prop := fval x = 0 \/ bpow radix2 (-1021) <= Rabs (fval x).

(** Rounding cannot harm a step from [p] towards [z] with [n] iterations left: it is the
    last one, or the last but one (both coefficients are 1/2), or [z] is clearly below. *)
Definition rounding_safe (n : Z) (z p : list F64) : Prop :=
  n = 1%Z \/ (n = 2%Z /\ Forall halvable z /\ Forall halvable p) \/ clearly_below n z p.
