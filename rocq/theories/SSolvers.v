(** * Specification vocabulary for the solvers of desdeo_mcdm/utilities/solvers.py. *)
From Coq Require Import String.
From Coq Require Import ZArith List Bool Lia Reals.
From Verif Require Import Num NumXR Py Np Spec MSolvers.
Import ListNotations.

Section SSolvers.
  Context {N : NumOps}.
  Notation vec := (list N).
  Notation mat := (list (list N)).

  (** Neither NaN nor infinite. *)
  Definition nfinite (x : N) : Prop := nisnan (nsub x x) = false.

  (** The weights that select the i-th of k objectives. *)
  Definition selects (k i : nat) (ws : vec) : Prop :=
    length ws = k /\ forall j w, nth_error ws j = Some w -> w = nofZ (if Nat.eqb j i then 1 else 0).

  (** Decision vectors that are within the bounds and break no constraint (a
      negative constraint value is a breach). *)
  Definition within (bounds : list (N * N)) (x : vec) : Prop :=
    Forall2 (fun b v => nleb (fst b) v = true /\ nleb v (snd b) = true) bounds x.
  Definition respects (constr : option (vec -> vec)) (x : vec) : Prop :=
    match constr with None => True | Some c => Forall (fun y => nleb (nofZ 0) y = true) (c x) end.
  Definition feasible (bounds : list (N * N)) (constr : option (vec -> vec)) (x : vec) : Prop :=
    within bounds x /\ respects constr x.

  (** [x] minimises the function of a call over what is feasible for that call. *)
  Definition is_min (j : sv_job N) (x : vec) : Prop :=
    feasible (sj_bounds j) (sj_constr j) x /\
    exists v, sj_fun j x = Ok v /\
      forall y, feasible (sj_bounds j) (sj_constr j) y -> exists w, sj_fun j y = Ok w /\ nleb v w = true.
  (** The solver reports success only for minimisers. *)
  Definition honest (e : sv_env N) : Prop := forall j x, sv_minimize e j = Ok (x, true) -> is_min j x.
  (** The solver always reports success. *)
  Definition succeeds (e : sv_env N) : Prop := forall j x ok, sv_minimize e j = Ok (x, ok) -> ok = true.

  (** [x] is Pareto optimal: feasible, and no feasible vector has a dominating outcome. *)
  Definition pareto (bounds : list (N * N)) (constr : option (vec -> vec)) (eval : vec -> vec) (x : vec) : Prop :=
    feasible bounds constr x /\ forall y, feasible bounds constr y -> ~ dominates (eval y) (eval x).

  (** What the solver answered for the i-th row of the payoff table. *)
  Definition row_answer (e : sv_env N) (eval : vec -> vec) (n : nat) (bounds : list (N * N)) (constr : option (vec -> vec))
      (method : string) (guess : vec) (i : nat) (x : vec) (ok : bool) : Prop :=
    exists j ws, sv_minimize e j = Ok (x, ok) /\ selects n i ws /\ sj_fun j = (fun x => sv_weighted (eval x) ws) /\
      sj_bounds j = bounds /\ sj_constr j = constr /\ sj_method j = method /\ sj_guess j = Some guess.
  (** What the solver answered for a reference point: no constraints, no guess. *)
  Definition ref_answer (e : sv_env N) (eval : vec -> vec) (bounds : list (N * N)) (method : string)
      (ideal nadir z x : vec) (ok : bool) : Prop :=
    exists j, sv_minimize e j = Ok (x, ok) /\ sj_fun j = (fun x => sv_asf e nadir ideal (eval x) z) /\
      sj_bounds j = bounds /\ sj_constr j = None /\ sj_method j = method /\ sj_guess j = None.

  (** Strictly larger in every component. *)
  Definition above (f g : vec) : Prop := Forall2 (fun y x => nltb x y = true) f g.
End SSolvers.

(** [math.ceil] on exact numbers. *)
Definition is_ceil (r : R) (c : Z) : Prop := (IZR c - 1 < r <= IZR c)%R.
Definition exact_ceil (e : sv_env XR) : Prop :=
  (forall r, exists c, sv_ceil e (Fin r : XR) = Ok c /\ is_ceil r c) /\
  (forall x, x <> XNan -> (forall r, x <> Fin r) -> sv_ceil e (x : XR) = Raise ValueErr) /\
  sv_ceil e (XNan : XR) = Raise ValueErr.

(** The lexicographic order. *)
Inductive lexlt : list R -> list R -> Prop :=
| lex_here x y a b : (x < y)%R -> lexlt (x :: a) (y :: b)
| lex_next x a b : lexlt a b -> lexlt (x :: a) (x :: b).

(** A point of the grid between [lo] and [up] with the steps [ss]. *)
Inductive on_grid (eps : R) : list R -> list R -> list R -> list R -> Prop :=
| og_nil : on_grid eps [] [] [] []
| og_cons lo up s z los ups ss zs (i : nat) : z = (lo + INR i * s)%R -> (z < up + eps)%R -> on_grid eps los ups ss zs -> on_grid eps (lo :: los) (up :: ups) (s :: ss) (z :: zs).

(** A step given as a float or as an array. *)
Definition step_is (k : nat) (st : sv_step XR) (ss : list R) : Prop :=
  length ss = k /\ (st = StArr (xv ss) \/ exists s, st = StFloat (Fin s : XR) /\ ss = repeat s k).
