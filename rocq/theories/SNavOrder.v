(** * NAUTILUS Navigator: two objects whose fronts only differ in the order of the
    rows (C105).  Nothing here mentions how the method computes anything. *)
From Coq Require Import ZArith List Bool Permutation.
From Verif Require Import Num Py Np Spec MNavigator SNavigator.
Import ListNotations.

Section Order.
  Context {N : NumOps}.
  Notation vec := (list N).
  Notation mat := (list (list N)).
  Implicit Types (asf : @asf_fn N) (s : nv_state N) (d : nv_dict N) (c : nv_content N) (q : nv_request N) (front : list (list N)).

  (** [l2] is [l1] in another order: item [i] of [l2] is item [p i] of [l1]. *)
  Definition reordered {A} (p : nat -> nat) (l1 l2 : list A) : Prop :=
    length l1 = length l2 /\
    (forall i, i < length l1 -> p i < length l1 /\ nth_error l2 i = nth_error l1 (p i)) /\
    (forall i j, i < length l1 -> j < length l1 -> p i = p j -> i = j).
  Definition reordered_vars (p : nat -> nat) (v1 v2 : option mat) : Prop :=
    match v1, v2 with None, None => True | Some m1, Some m2 => reordered p m1 m2 | _, _ => False end.

  (** The achievement function tells any two rows of the front apart that are different. *)
  Definition no_ties asf front (ideal nadir ref : vec) : Prop :=
    forall r r', In r front -> In r' front -> neqb (asf nadir ideal r ref) (asf nadir ideal r' ref) = true -> r = r'.

  (** Corresponding numbers of rows ([n] rows). *)
  Definition same_rows (p : nat -> nat) (n : nat) (idx1 idx2 : idxarr) : Prop :=
    Forall (fun i => i < n) (idx_list idx1) /\ Forall (fun i => i < n) (idx_list idx2) /\
    forall i, i < n -> (In i (idx_list idx2) <-> In (p i) (idx_list idx1)).

  (** Two requests that show the same: everything is equal but the numbers of the
      reachable rows, which correspond; a stop request lists the same solutions. *)
  Definition shows_same (p : nat -> nat) (n : nat) q1 q2 : Prop :=
    match q1, q2 with
    | NReq c1, NReq c2 =>
        nc_ideal c1 = nc_ideal c2 /\ nc_nadir c1 = nc_nadir c2 /\ nc_lb c1 = nc_lb c2 /\ nc_ub c1 = nc_ub c2 /\
        nc_bounds c1 = nc_bounds c2 /\ nc_step c1 = nc_step c2 /\ nc_left c1 = nc_left c2 /\ nc_dist c1 = nc_dist c2 /\
        nc_speed c1 = nc_speed c2 /\ nc_nav c1 = nc_nav c2 /\ same_rows p n (nc_idx c1) (nc_idx c2)
    | NStop o1 v1 idx1, NStop o2 v2 idx2 =>
        same_rows p n idx1 idx2 /\
        match v1, v2 with
        | None, None => Permutation o1 o2
        | Some w1, Some w2 => length w1 = length o1 /\ length w2 = length o2 /\ Permutation (combine o1 w1) (combine o2 w2)
        | _, _ => False
        end
    | _, _ => False
    end.
  Definition same_outcome (p : nat -> nat) (n : nat) (o1 o2 : res (nv_request N)) : Prop :=
    match o1, o2 with Ok q1, Ok q2 => shows_same p n q1 q2 | Raise e1, Raise e2 => e1 = e2 | _, _ => False end.

  (** Any history of two objects, one with [front1], the other with [front2], in which
      corresponding requests get the same answers; the reference points of the
      answers satisfy [used]. *)
  Inductive nv_twins asf front1 front2 (ideal nadir : vec) (vars1 vars2 : option mat) (used : vec -> Prop)
    : nv_state N -> nv_state N -> list (nv_request N * nv_request N) -> Prop :=
  | nv_twins_init :
      nv_twins asf front1 front2 ideal nadir vars1 vars2 used (nv_init front1 ideal nadir vars1) (nv_init front2 ideal nadir vars2)
        [(nv_start (nv_init front1 ideal nadir vars1), nv_start (nv_init front2 ideal nadir vars2))]
  | nv_twins_step s1 s2 qs c1 c2 d s1' out1 s2' out2 :
      nv_twins asf front1 front2 ideal nadir vars1 vars2 used s1 s2 qs -> In (NReq c1, NReq c2) qs ->
      nv_validate c1 d = Ok tt -> (forall ref, nd_ref d = Some ref -> used ref) ->
      nv_iterate asf (NReq c1) (Some d) s1 = (s1', out1) -> nv_iterate asf (NReq c2) (Some d) s2 = (s2', out2) ->
      nv_twins asf front1 front2 ideal nadir vars1 vars2 used s1' s2'
        (match out1, out2 with Ok q1, Ok q2 => (q1, q2) :: qs | _, _ => qs end).
End Order.
