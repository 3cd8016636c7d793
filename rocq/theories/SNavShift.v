(** * NAUTILUS Navigator: two objects whose data differ by a constant in every
    objective (C111).  Nothing here mentions how the method computes anything. *)
From Coq Require Import ZArith List Bool Reals.
From Verif Require Import Num NumXR Py Np Spec MNavigator SNavigator.
Import ListNotations.

(** [t] added to a number (infinities and NaN stay what they are). *)
Definition up (t : R) (x : XR) : XR := match x with Fin r => Fin (r + t) | _ => x end.
(** The constant of every objective added to a vector, to the rows of a matrix, to
    bounds of which some are not given. *)
Fixpoint moved (t : list R) (v : list XR) : list XR :=
  match t, v with
  | c :: t', x :: v' => up c x :: moved t' v'
  | _, _ => v
  end.
Definition moved_rows (t : list R) (m : list (list XR)) : list (list XR) := map (moved t) m.
Fixpoint moved_opts (t : list R) (v : list (option XR)) : list (option XR) :=
  match t, v with
  | c :: t', x :: v' => option_map (up c) x :: moved_opts t' v'
  | _, _ => v
  end.
(** An answer in the moved objectives: the same speed and choices, the reference point
    and the bounds moved. *)
Definition moved_answer (t : list R) (d : nv_dict XR) : nv_dict XR :=
  MkND (option_map (moved t) (nd_ref d)) (nd_speed d) (nd_prev d) (option_map (moved_opts t) (nd_bounds d)) (nd_stop d).
(** A request in the moved objectives: vectors of objective values are moved, the
    reachable rows, the counters, the distance and the speed are the same. *)
Definition moved_request (t : list R) (q : nv_request XR) : nv_request XR :=
  match q with
  | NReq c => NReq (MkNC (moved t (nc_ideal c)) (moved t (nc_nadir c)) (moved t (nc_lb c)) (moved t (nc_ub c))
                         (moved t (nc_bounds c)) (nc_idx c) (nc_step c) (nc_left c) (nc_dist c) (nc_speed c) (moved t (nc_nav c)))
  | NStop objs decs idx => NStop (moved_rows t objs) decs idx
  end.

(** The achievement function does not see the constants. *)
Definition ignores_constants (asf : @asf_fn XR) : Prop :=
  forall t nadir ideal row ref, length nadir = length t -> length ideal = length t -> length row = length t -> length ref = length t ->
    asf (moved t nadir) (moved t ideal) (moved t row) (moved t ref) = asf nadir ideal row ref.

(** A difference between two reference points that counts as no difference (np.allclose:
    up to 1e-8 plus 1e-5 of the value) does so in the moved objectives, and vice versa. *)
Definition same_changes (t : list R) (used : list XR -> Prop) : Prop :=
  forall q q', used q -> used q' -> allclose (moved t q) (moved t q') = allclose q q'.

(** Any history of two objects, one with the data, the other with the moved data, in
    which corresponding requests get corresponding answers; the reference points of the
    answers satisfy [used]. *)
Inductive nv_shifted (asf : @asf_fn XR) (t : list R) (front : list (list XR)) (ideal nadir : list XR) (vars : option (list (list XR))) (used : list XR -> Prop)
  : nv_state XR -> nv_state XR -> list (nv_request XR * nv_request XR) -> Prop :=
| nv_shifted_init :
    nv_shifted asf t front ideal nadir vars used (nv_init front ideal nadir vars) (nv_init (moved_rows t front) (moved t ideal) (moved t nadir) vars)
      [(nv_start (nv_init front ideal nadir vars), nv_start (nv_init (moved_rows t front) (moved t ideal) (moved t nadir) vars))]
| nv_shifted_step s1 s2 qs c1 c2 d s1' out1 s2' out2 :
    nv_shifted asf t front ideal nadir vars used s1 s2 qs -> In (NReq c1, NReq c2) qs ->
    nv_validate c1 d = Ok tt -> (forall ref, nd_ref d = Some ref -> used ref) ->
    nv_iterate asf (NReq c1) (Some d) s1 = (s1', out1) -> nv_iterate asf (NReq c2) (Some (moved_answer t d)) s2 = (s2', out2) ->
    nv_shifted asf t front ideal nadir vars used s1' s2'
      (match out1, out2 with Ok q1, Ok q2 => (q1, q2) :: qs | _, _ => qs end).
