(** * NAUTILUS Navigator: the vocabulary of the properties C16-C28, C63, C64.
    Nothing here mentions how the method computes anything. *)
From Coq Require Import ZArith List Bool.
From Verif Require Import Num Py Np Spec MNavigator.
Import ListNotations.

Section Spec.
  Context {N : NumOps}.
  Notation vec := (list N).
  Notation mat := (list (list N)).
  Implicit Types (asf : @asf_fn N) (s : nv_state N) (d : nv_dict N) (c : nv_content N) (q : nv_request N)
    (front : list (list N)).

  (** The arguments the constructor asks for: a front of [k] columns, ideal and
      nadir of length [k], and one decision vector per row. *)
  Definition setup (k : nat) front (ideal nadir : vec) (vars : option mat) : Prop :=
    is_matrix k front /\ length ideal = k /\ length nadir = k /\
    match vars with Some v => length v = length front | None => True end.

  (** [row] is worse than some bound ([nan] bounds never count). *)
  Definition exceeds (row bounds : vec) : Prop :=
    exists r x b, nth_error row r = Some x /\ nth_error bounds r = Some b /\ nltb b x = true.
  (** [row] is considered for the bounds of objective [r]. *)
  Definition considered (rows : mat) (nav bounds : vec) (r : nat) (row : vec) : Prop :=
    In row rows /\ ~ exceeds row bounds /\
    (forall i x y, i <> r -> nth_error row i = Some x -> nth_error nav i = Some y -> nleb x y = true).

  (** What the bounds are. *)
  Definition bounds_are (rows : mat) (nav bounds plb pub lb ub : vec) : Prop :=
    length lb = length nav /\ length ub = length nav /\
    forall r lo hi, nth_error lb r = Some lo -> nth_error ub r = Some hi ->
      ((forall row, ~ considered rows nav bounds r row) /\ nth_error plb r = Some lo /\ nth_error pub r = Some hi) \/
      ((exists row, considered rows nav bounds r row /\ nth_error row r = Some lo) /\
       (exists row, considered rows nav bounds r row /\ nth_error row r = Some hi) /\
       (forall row x, considered rows nav bounds r row -> nth_error row r = Some x -> nleb lo x = true /\ nleb x hi = true)).

  (** A front inside [ideal, nadir]. *)
  Definition enclosed front (ideal nadir : vec) : Prop :=
    Forall (fun row => in_box row ideal nadir) front /\ nan_free ideal /\ nan_free nadir.

  (** Row [i] is reachable and satisfies the bounds. *)
  Definition admissible front (idx : idxarr) (bounds : vec) (i : nat) : Prop :=
    In i (idx_list idx) /\ exists row, nth_error front i = Some row /\ ~ exceeds row bounds.

  (** [asf] as the scalarizer uses it: a row of NaNs has value NaN, a row of the front does not. *)
  Definition proper_asf (asf : asf_fn) front (ideal nadir ref : vec) : Prop :=
    (forall row, In row front -> nisnan (asf nadir ideal (map (fun _ => nnan) row) ref) = true) /\
    (forall row, In row front -> nisnan (asf nadir ideal row ref) = false).

  (** [i] is the first of the admissible rows with the least value. *)
  Definition best_projection (asf : asf_fn) front (ideal nadir ref : vec) (idx : idxarr) (bounds : vec) (i : nat) : Prop :=
    admissible front idx bounds i /\
    exists row, nth_error front i = Some row /\
      forall j row', admissible front idx bounds j -> nth_error front j = Some row' ->
        nleb (asf nadir ideal row ref) (asf nadir ideal row' ref) = true /\
        (j < i -> nltb (asf nadir ideal row ref) (asf nadir ideal row' ref) = true).

End Spec.

(** A session in which each answer is given to the latest request: the answers,
    the method, and the latest request. *)
Inductive nv_session {N : NumOps} (asf : asf_fn) (front : list (list N)) (ideal nadir : list N) (vars : option (list (list N)))
  : list (nv_dict N) -> nv_state N -> nv_content N -> Prop :=
| nvs_init c : nv_start (nv_init front ideal nadir vars) = NReq c ->
    nv_session asf front ideal nadir vars [] (nv_init front ideal nadir vars) c
| nvs_step ds s c d s' c' : nv_session asf front ideal nadir vars ds s c -> nv_validate c d = Ok tt ->
    nv_iterate asf (NReq c) (Some d) s = (s', Ok (NReq c')) ->
    nv_session asf front ideal nadir vars (ds ++ [d]) s' c'.

(** The answer asks for a step forward. *)
Definition forward {N} (d : nv_dict N) : Prop := nd_prev d = Some (VBool false) /\ nd_stop d = Some (VBool false).

