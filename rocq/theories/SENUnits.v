(** * E-NAUTILUS: two objects whose objectives are measured in different units (C112).
    Nothing here mentions how the method computes anything. *)
From Coq Require Import ZArith List Bool Reals.
From Verif Require Import Num NumXR Py Np Spec MENautilus.
Import ListNotations.

(** A change of unit: a positive factor and a constant.  Infinities and NaN stay what
    they are. *)
Definition unit_change : Type := (R * R)%type.
Definition conv (u : unit_change) (x : XR) : XR := match x with Fin r => Fin (fst u * r + snd u) | _ => x end.
(** A vector of objective values in the new units, the rows of a matrix. *)
Definition conv_vec (us : list unit_change) (v : list XR) : list XR := zipw conv us v.
Definition conv_rows (us : list unit_change) (m : list (list XR)) : list (list XR) := map (conv_vec us) m.
Definition proper_units (us : list unit_change) : Prop := Forall (fun u => (0 < fst u)%R) us.
(** All objectives get the same factor (the constants may differ). *)
Definition common_factor (us : list unit_change) : Prop := forall u u', In u us -> In u' us -> fst u = fst u'.

(** Corresponding requests: the same numbers of iterations and points, all vectors of
    objective values converted; with a common factor also the same distances and the
    same decision vector of the final solution. *)
Definition same_if (us : list unit_change) {A} (x y : A) : Prop := common_factor us -> x = y.
Definition corresponds (us : list unit_change) (q1 q2 : en_request XR) : Prop :=
  match q1, q2 with
  | EInit ideal nadir, EInit ideal' nadir' => ideal' = conv_vec us ideal /\ nadir' = conv_vec us nadir
  | EReq m c, EReq m' c' =>
      m' = m /\ ec_ideal c' = conv_vec us (ec_ideal c) /\ ec_nadir c' = conv_vec us (ec_nadir c) /\
      ec_points c' = conv_rows us (ec_points c) /\ ec_lb c' = conv_rows us (ec_lb c) /\ ec_ub c' = conv_rows us (ec_ub c) /\
      ec_left c' = ec_left c /\ same_if us (ec_dist c') (ec_dist c)
  | EStop z x, EStop z' x' => z' = conv_vec us z /\ (x = None <-> x' = None) /\ same_if us x' x
  | _, _ => False
  end.
Definition corresponding_outcome (us : list unit_change) (o1 o2 : res (en_request XR)) : Prop :=
  match o1, o2 with Ok q1, Ok q2 => corresponds us q1 q2 | Raise e1, Raise e2 => e1 = e2 | _, _ => False end.

(** Corresponding answers: the same choices; the earlier points and bounds that a step
    back gives are converted, and the distances it gives are the same if the factor is
    common. *)
Definition same_answer (us : list unit_change) (d1 d2 : en_dict XR) : Prop :=
  d_n_iterations d2 = d_n_iterations d1 /\ d_n_points d2 = d_n_points d1 /\ d_index d2 = d_index d1 /\
  d_step_back d2 = d_step_back d1 /\ d_change d2 = d_change d1 /\ d_iterations_left d2 = d_iterations_left d1 /\
  d_prev_solutions d2 = option_map (conv_rows us) (d_prev_solutions d1) /\
  d_prev_lb d2 = option_map (conv_rows us) (d_prev_lb d1) /\ d_prev_ub d2 = option_map (conv_rows us) (d_prev_ub d1) /\
  match d_prev_dist d1, d_prev_dist d2 with None, None => True | Some x, Some y => same_if us y x | _, _ => False end.
(** Whatever earlier points and bounds a step back gives have one value per objective. *)
Definition well_formed (k : nat) (d : en_dict XR) : Prop :=
  forall m, d_prev_solutions d = Some m \/ d_prev_lb d = Some m \/ d_prev_ub d = Some m -> is_matrix k m.
(** The clusterings pick corresponding solutions. *)
Definition same_clusters (us : list unit_change) (km1 km2 : @km_oracle XR) : Prop :=
  forall rows n, is_matrix (length us) rows -> km2 (conv_rows us rows) n = km1 rows n.

(** Any history of two objects, one with the data, the other with the converted data, in
    which corresponding requests get corresponding answers (or none). *)
Inductive en_twins (us : list unit_change) (F : list (list XR)) (ideal nadir : list XR) (vars : option (list (list XR)))
  : en_state XR -> en_state XR -> list (en_request XR * en_request XR) -> Prop :=
| en_twins_init :
    en_twins us F ideal nadir vars (en_init F ideal nadir vars) (en_init (conv_rows us F) (conv_vec us ideal) (conv_vec us nadir) vars)
      [(en_start (en_init F ideal nadir vars), en_start (en_init (conv_rows us F) (conv_vec us ideal) (conv_vec us nadir) vars))]
| en_twins_unanswered s1 s2 qs q1 q2 km1 km2 s1' out1 s2' out2 :
    en_twins us F ideal nadir vars s1 s2 qs -> In (q1, q2) qs -> same_clusters us km1 km2 ->
    en_iterate km1 q1 None s1 = (s1', out1) -> en_iterate km2 q2 None s2 = (s2', out2) ->
    en_twins us F ideal nadir vars s1' s2' (match out1, out2 with Ok q1', Ok q2' => (q1', q2') :: qs | _, _ => qs end)
| en_twins_answered s1 s2 qs q1 q2 d1 d2 km1 km2 s1' out1 s2' out2 :
    en_twins us F ideal nadir vars s1 s2 qs -> In (q1, q2) qs -> same_clusters us km1 km2 ->
    en_validate q1 d1 = Ok tt -> same_answer us d1 d2 -> well_formed (length us) d1 ->
    en_iterate km1 q1 (Some d1) s1 = (s1', out1) -> en_iterate km2 q2 (Some d2) s2 = (s2', out2) ->
    en_twins us F ideal nadir vars s1' s2' (match out1, out2 with Ok q1', Ok q2' => (q1', q2') :: qs | _, _ => qs end).
