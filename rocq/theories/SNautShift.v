(** * NAUTILUS and NAUTILUS 2: two objects whose data differ by a constant in every
    objective (C113).  Nothing here mentions how the methods compute anything.
    [up], [moved]: constants added to a number, to the components of a vector (SNavShift). *)
From Coq Require Import ZArith List Bool Reals.
From Verif Require Import Num NumXR Py Np Spec SNavShift MAsf MNautilus SNautilus.
Import ListNotations.

(** The objectives of [p2] are those of [p1] plus the constants, and the optimizers find
    the same decision vectors for the moved reference points and bounds. *)
Record moved_problem (t : list R) (eps : R) (ideal nadir : list XR) (p1 p2 : nt_problem XR) : Prop := MkMP {
  mp_eval : forall x, np_eval p2 x = moved t (np_eval p1 x);
  mp_x0 : np_x0 p2 = np_x0 p1;
  mp_min : forall w q, length q = length t ->
    np_min p2 w (moved t nadir) (map (fun x => nsub x (Fin eps : XR)) (moved t ideal)) (moved t q) (np_x0 p2) =
    np_min p1 w nadir (map (fun x => nsub x (Fin eps : XR)) ideal) q (np_x0 p1);
  mp_ecm : forall i z, (i < length t)%nat -> length z = length t ->
    np_ecm p2 i (drop_at i (moved t z)) (np_x0 p2) = np_ecm p1 i (drop_at i z) (np_x0 p1) }.

(** The starting point of NAUTILUS 2 is a vector of objective values. *)
Definition moved_variant (t : list R) (v : nt_variant XR) : nt_variant XR :=
  match v with NV1 => NV1 | NV2 s fuel => NV2 (moved t s) fuel end.
(** A request in the moved objectives: the vectors of objective values are moved, the
    distance and the decision vector are the same. *)
Definition moved_nt (t : list R) (q : nt_request XR) : nt_request XR :=
  match q with
  | NInit => NInit
  | NReq z lo hi d => NReq (moved t z) (moved t lo) (moved t hi) d
  | NStop x f => NStop x (option_map (moved t) f)
  end.

(** Any history of two objects, one with the data, the other with the moved data, in
    which corresponding requests get the same answers. *)
Section Twins.
  Context (t : list R) (p1 p2 : nt_problem XR) (v : nt_variant XR) (eps : R) (ideal nadir : list XR).
  Inductive nt_shifted : nt_state XR -> nt_state XR -> list (nt_request XR * nt_request XR) -> Prop :=
  | nt_shifted_init : nt_shifted nt_init nt_init [(NInit, NInit)]
  | nt_shifted_step s1 s2 qs q1 q2 resp s1' out1 s2' out2 :
      nt_shifted s1 s2 qs -> In (q1, q2) qs -> (forall d, resp = Some d -> nt_validate v nadir q1 d = Ok tt) ->
      nt_iterate p1 v (Fin eps : XR) ideal nadir q1 resp s1 = (s1', out1) ->
      nt_iterate p2 (moved_variant t v) (Fin eps : XR) (moved t ideal) (moved t nadir) q2 resp s2 = (s2', out2) ->
      nt_shifted s1' s2' (match out1, out2 with Ok (Some q1'), Ok (Some q2') => (q1', q2') :: qs | _, _ => qs end).
End Twins.

(** An optimizer that only sees the values of the function it minimizes. *)
Definition sees_values (solve : (list XR -> res XR) -> list XR -> res (list XR)) : Prop :=
  forall f g x0, (forall x, f x = g x) -> solve f x0 = solve g x0.
(** An optimizer under constraints that finds the same point when a constant is added to
    the function it minimizes. *)
Definition ignores_a_constant (solve : (list XR -> res XR) -> (list XR -> res (list XR)) -> list XR -> res (list XR)) : Prop :=
  forall c f g h h' x0, (forall x, g x = rmap (up c) (f x)) -> (forall x, h' x = h x) -> solve g h' x0 = solve f h x0.
(** A problem solved by such optimizers: [solve] is given the achievement function of the
    reference point [q], [csolve] objective [i] and the constraints "objective j at most
    eps_j" for the others (their slacks; a slack that is not negative is satisfied). *)
Definition asf_of (rho : XR) (eval : list XR -> list XR) (w nadir utopian q x : list XR) : res XR := rp_asf rho w nadir utopian (eval x) q.
Definition slack_of (eval : list XR -> list XR) (i : nat) (e x : list XR) : res (list XR) := bcast2 nsub e (drop_at i (eval x)).
Definition solved_by (rho : XR) solve csolve (eval : list XR -> list XR) (constr : option (list XR -> list XR)) (x0 : list XR) : nt_problem XR :=
  MkNP eval constr x0
    (fun w nadir utopian q x0 => solve (asf_of rho eval w nadir utopian q) x0)
    (fun i e x0 => csolve (fun x => at_ (eval x) i) (slack_of eval i e) x0).
