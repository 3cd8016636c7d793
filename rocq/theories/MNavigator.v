(** * Model of NAUTILUS Navigator: desdeo_mcdm/interactive/NautilusNavigator.py *)
From Coq Require Import ZArith List Bool Lia.
From Verif Require Import Num Py Np.
Import ListNotations.

(** NautilusNavigator.__init__, on the shapes of its arguments:
    the checks in order.  [shape[0]] of a 0-d array is an IndexError. *)
(* /repo/desdeo_mcdm: NautilusNavigator.py:232-261 *)
Definition nv_ctor_check (front_shape ideal_shape nadir_shape : list nat)
           (vars_shape : option (list nat)) : res unit :=
  match front_shape with
  | [nrows; ncols] =>
      do _ <- match vars_shape with
              | None => Ok tt
              | Some [] => Raise IndexErr
              | Some (v :: _) => if Nat.eqb v nrows then Ok tt else Raise MethodExn
              end;
      match ideal_shape with
      | [] => Raise IndexErr
      | k :: _ =>
          if negb (Nat.eqb k ncols) then Raise MethodExn
          else if list_eq_dec Nat.eq_dec ideal_shape nadir_shape then Ok tt
          else Raise MethodExn
      end
  | _ => Raise MethodExn
  end.

(** Arrays live in a heap, so that in-place writes and
    copies are visible: a location is a position in the heap. *)
Section Heap.
  Context {A : Type}.
  (* /repo/desdeo_mcdm: NautilusNavigator.py:599-629 (numpy arrays are mutable objects; line 606 writes into the argument) *)
  Definition heap : Type := list A.
  (* /repo/desdeo_mcdm: NautilusNavigator.py:599-629 (reference to an array) *)
  Definition loc : Type := nat.
  (* /repo/desdeo_mcdm: NautilusNavigator.py:599-629 (read of an array) *)
  Definition h_get (h : heap) (l : loc) : res A := at_ h l.
  (* /repo/desdeo_mcdm: NautilusNavigator.py:546, 550, 606 (write into an array) *)
  Definition h_set (h : heap) (l : loc) (m : A) : res heap := set_ h l m.
  (* /repo/desdeo_mcdm: NautilusNavigator.py:543, 457 (a copy is a new array) *)
  Definition h_new (h : heap) (m : A) : heap * loc := (h ++ [m], length h).
End Heap.
Arguments heap : clear implicits.

Section Navigator.
  Context {N : NumOps}.
  Notation vec := (list N).
  Notation mat := (list (list N)).

  (** Content of a NautilusNavigatorRequest (message and
      allowed_speeds = [1..5] are constants). *)
  (* /repo/desdeo_mcdm: NautilusNavigator.py:77-90 *)
  Record nv_content := MkNC {
    nc_ideal : vec; nc_nadir : vec; nc_lb : vec; nc_ub : vec; nc_bounds : vec;
    nc_idx : idxarr; nc_step : Z; nc_left : Z; nc_dist : N;
    nc_speed : option (pyval N); nc_nav : vec }.

  (** The two request classes.  A stop request for a 0-d
      index array carries one row instead of a one-row matrix; it is represented
      by the one-row matrix. *)
  (* /repo/desdeo_mcdm: NautilusNavigator.py:12-40, 43-109 *)
  Inductive nv_request :=
  | NReq (c : nv_content)
  | NStop (objs : mat) (decs : option mat) (idx : idxarr).

  (** A response; [None] at the top level is an absent key.  The reference point
      is a 1-D array; user bounds are a sequence of floats and Nones. *)
  (* /repo/desdeo_mcdm: NautilusNavigator.py:111-188, 320-359 (the keys that are read) *)
  Record nv_dict := MkND {
    nd_ref : option vec;
    nd_speed : option (pyval N);
    nd_prev : option (pyval N);
    nd_bounds : option (list (option N));
    nd_stop : option (pyval N) }.

  (** Attributes of the method object (_allowed_speeds is the
      constant [1..5]). *)
  (* /repo/desdeo_mcdm: NautilusNavigator.py:248-292 *)
  Record nv_state := MkNS {
    ns_front : mat; ns_ideal : vec; ns_nadir : vec; ns_vars : option mat;
    ns_lb : vec; ns_ub : vec; ns_bounds : vec; ns_idx : idxarr;
    ns_step : Z; ns_left : Z; ns_dist : N; ns_speed : option (pyval N);
    ns_ref : option vec; ns_nav : vec; ns_proj : option nat }.

  (** [np.array(response["user_bounds"], dtype=float)]: None becomes NaN. *)
  (* /repo/desdeo_mcdm: NautilusNavigator.py:159, 324 (np.array(..., dtype=float)) *)
  Definition to_floats (l : list (option N)) : vec :=
    map (fun o => match o with Some x => x | None => nnan end) l.

  (** [np.any(a < b)] / [np.any(a > b)] with broadcasting. *)
  (* /repo/desdeo_mcdm: NautilusNavigator.py:129-131 (np.any of a comparison) *)
  Definition bany (f : N -> N -> bool) (a b : vec) : res bool :=
    rmap (fun l => existsb (fun x => x) l) (bcast2 f a b).

  (** NautilusNavigatorRequest.validator.  Raising a string
      is a TypeError. *)
  (* /repo/desdeo_mcdm: NautilusNavigator.py:111-188 *)
  Definition nv_validate (c : nv_content) (d : nv_dict) : res unit :=
    match nd_ref d, nd_speed d, nd_prev d, nd_bounds d, nd_stop d with
    | Some ref, Some speed, Some prev, Some ub, Some stop =>
        match bany nltb ref (nc_ideal c), bany (fun x y => nltb y x) ref (nc_nadir c) with
        | Ok false, Ok false =>
            match py_int speed with
            | None => Raise MethodExn
            | Some z =>
                if negb ((1 <=? z) && (z <=? 5))%Z then Raise MethodExn
                else match prev with
                     | VBool _ =>
                         if negb (Nat.eqb (length ub) (length (nc_ideal c))) then Raise MethodExn
                         else match stop with VBool _ => Ok tt | _ => Raise TypeErr end
                     | _ => Raise TypeErr
                     end
            end
        | _, _ => Raise MethodExn
        end
    | _, _, _, _, _ => Raise MethodExn
    end.

  (** __init__. *)
  (* /repo/desdeo_mcdm: NautilusNavigator.py:248-292 *)
  Definition nv_init (front : mat) (ideal nadir : vec) (vars : option mat) : nv_state :=
    MkNS front ideal nadir vars ideal nadir (map (fun _ => nnan) ideal)
         (IList (seq 0 (length front))) 1 100 (nofZ 0) None None nadir None.

  (** NautilusNavigatorRequest.init_with_method. *)
  (* /repo/desdeo_mcdm: NautilusNavigator.py:95-109 *)
  Definition nv_request_of (s : nv_state) : nv_request :=
    NReq (MkNC (ns_ideal s) (ns_nadir s) (ns_lb s) (ns_ub s) (ns_bounds s) (ns_idx s)
               (ns_step s) (ns_left s) (ns_dist s) (ns_speed s) (ns_nav s)).

  (** start. *)
  (* /repo/desdeo_mcdm: NautilusNavigator.py:294-300 *)
  Definition nv_start (s : nv_state) : nv_request := nv_request_of s.

  (** np.allclose(a, b), rtol 1e-5, atol 1e-8: exact comparison unless both
      entries are finite. *)
  (* /repo/desdeo_mcdm: NautilusNavigator.py:429-431 (np.allclose, numpy) *)
  Definition nfinite (x : N) : bool := negb (nisnan (nsub x x)).
  (* /repo/desdeo_mcdm: NautilusNavigator.py:429-431 (np.allclose, numpy) *)
  Definition isclose (x y : N) : bool :=
    if nfinite x && nfinite y
    then nleb (nabs (nsub x y))
              (nadd (ndiv (nofZ 1) (nofZ 100000000))
                    (nmul (ndiv (nofZ 1) (nofZ 100000)) (nabs y)))
    else neqb x y.
  (* /repo/desdeo_mcdm: NautilusNavigator.py:429-431 (np.allclose, numpy) *)
  Definition allclose (a b : vec) : res bool :=
    rmap (fun l => forallb (fun x => x) l) (bcast2 isclose a b).

  (** calculate_reachable_point_indices. *)
  (* /repo/desdeo_mcdm: NautilusNavigator.py:503-508 (one row) *)
  Definition nv_row_in_box (row lb ub : vec) : res bool :=
    do lo <- bcast2 (fun x y => nleb y x) row lb;
    do hi <- bcast2 nleb row ub;
    Ok (forallb (fun b => b) lo && forallb (fun b => b) hi).
  (* /repo/desdeo_mcdm: NautilusNavigator.py:491-508 *)
  Definition nv_reachable (front : mat) (lb ub : vec) : res idxarr :=
    do m <- rseq (map (fun row => nv_row_in_box row lb ub) front);
    Ok (squeeze_idx (argwhere m)).

  (* /repo/desdeo_mcdm: NautilusNavigator.py:546, 550, 606 *)
  Definition nan_row (row : vec) : vec := map (fun _ => nnan) row.
  (** [m[mask] = np.nan] *)
  (* /repo/desdeo_mcdm: NautilusNavigator.py:546, 550, 606 *)
  Definition nan_rows (mask : list bool) (m : mat) : mat :=
    zipw (fun b row => if b : bool then nan_row row else row) mask m.

  (** The achievement scalarizing function evaluated on one row:
      [PointMethodASF(nadir, ideal)(row, reference_point=ref)], desdeo_tools, not
      part of this repository: a parameter. *)
  (* /repo/desdeo_mcdm: NautilusNavigator.py:536-537 (the scalarizing function, oracle) *)
  Definition asf_fn : Type := vec -> vec -> vec -> vec -> N.

  (** solve_nautilus_asf_problem.  DiscreteMinimizer.minimize
      (desdeo_tools) without constraints is np.nanargmin over the scalarized
      rows.  [l] is the location of the front. *)
  (* /repo/desdeo_mcdm: NautilusNavigator.py:511-554 *)
  Definition nv_solve (asf : asf_fn) (h : heap mat) (l : loc) (idx : idxarr)
             (ref ideal nadir bounds : vec) : res (heap mat * nat) :=
    do front <- h_get h l;
    let (h1, tmp) := h_new h front in
    do _ <- take front (idx_list idx);   (* mask[subset_indices] = True *)
    let mask := map (fun i => existsb (Nat.eqb i) (idx_list idx)) (seq 0 (length front)) in
    let m1 := nan_rows (map negb mask) front in
    do h2 <- h_set h1 tmp m1;
    do bmask <- rseq (map (fun row => bany (fun x y => nltb y x) row bounds) m1);
    let m2 := nan_rows bmask m1 in
    do h3 <- h_set h2 tmp m2;
    do i <- npnanargmin (map (fun row => asf nadir ideal row ref) m2);
    Ok (h3, i).

  (** calculate_navigation_point. *)
  (* /repo/desdeo_mcdm: NautilusNavigator.py:556-574 *)
  Definition nv_nav_point (proj nav : vec) (r : Z) : res vec :=
    if (r =? 0)%Z then Raise ZeroDivErr
    else bcast2 nadd (vscale (ndiv (nofZ (r - 1)) (nofZ r)) nav)
                     (vscale (ndiv (nofZ 1) (nofZ r)) proj).

  (** One objective of calculate_bounds. *)
  (* /repo/desdeo_mcdm: NautilusNavigator.py:610-619 *)
  Definition nv_cell (m : mat) (nav : vec) (r : nat) : vec :=
    map (fun row => nth r row nnan)
        (filter (fun row => all_le (drop_at r row) (drop_at r nav)) m).
  (* /repo/desdeo_mcdm: NautilusNavigator.py:609-627 *)
  Definition nv_bound1 (m : mat) (nav plb pub : vec) (r : nat) : res (N * N) :=
    match nv_cell m nav r with
    | [] => do lo <- at_ plb r; do hi <- at_ pub r; Ok (lo, hi)
    | c => do lo <- npnanmin c; do hi <- npnanmax c; Ok (lo, hi)
    end.

  (** calculate_bounds, on the array at location [l] (np.atleast_2d
      of a 2-D array is the array itself, so the rows violating the user bounds
      are overwritten in place).  [k] is the number of columns. *)
  (* /repo/desdeo_mcdm: NautilusNavigator.py:577-629 *)
  Definition nv_bounds (h : heap mat) (l : loc) (k : nat) (nav bounds plb pub : vec)
    : res (heap mat * (vec * vec)) :=
    do m <- h_get h l;
    do bmask <- rseq (map (fun row => bany (fun x y => nltb y x) row bounds) m);
    let m' := nan_rows bmask m in
    do h' <- h_set h l m';
    if negb (Nat.eqb (length nav) k) then Raise IndexErr
    else
      do bs <- rseq (map (nv_bound1 m' nav plb pub) (seq 0 k));
      Ok (h', (map fst bs, map snd bs)).

  (** calculate_distance. *)
  (* /repo/desdeo_mcdm: NautilusNavigator.py:631-650 *)
  Definition nv_distance (nav proj nadir : vec) : res N :=
    do a <- bcast2 nsub nav nadir;
    do b <- bcast2 nsub proj nadir;
    Ok (nmul (ndiv (vnorm a) (vnorm b)) (nofZ 100)).

  (** Attribute updates. *)
  (* /repo/desdeo_mcdm: NautilusNavigator.py:433 (assignment to self._current_speed) *)
  Definition w_speed v s := MkNS (ns_front s) (ns_ideal s) (ns_nadir s) (ns_vars s) (ns_lb s) (ns_ub s) (ns_bounds s) (ns_idx s) (ns_step s) (ns_left s) (ns_dist s) v (ns_ref s) (ns_nav s) (ns_proj s).
  (* /repo/desdeo_mcdm: NautilusNavigator.py:444-445 (assignment to self._reference_point, self._projection_index) *)
  Definition w_proj r p s := MkNS (ns_front s) (ns_ideal s) (ns_nadir s) (ns_vars s) (ns_lb s) (ns_ub s) (ns_bounds s) (ns_idx s) (ns_step s) (ns_left s) (ns_dist s) (ns_speed s) r (ns_nav s) p.
  (* /repo/desdeo_mcdm: NautilusNavigator.py:418, 421, 453-454 (assignment to self._navigation_point, self._user_bounds) *)
  Definition w_nav v b s := MkNS (ns_front s) (ns_ideal s) (ns_nadir s) (ns_vars s) (ns_lb s) (ns_ub s) b (ns_idx s) (ns_step s) (ns_left s) (ns_dist s) (ns_speed s) (ns_ref s) v (ns_proj s).
  (* /repo/desdeo_mcdm: NautilusNavigator.py:419-420, 464-465 (assignment to self._reachable_lb, self._reachable_ub) *)
  Definition w_lu lb ub s := MkNS (ns_front s) (ns_ideal s) (ns_nadir s) (ns_vars s) lb ub (ns_bounds s) (ns_idx s) (ns_step s) (ns_left s) (ns_dist s) (ns_speed s) (ns_ref s) (ns_nav s) (ns_proj s).
  (* /repo/desdeo_mcdm: NautilusNavigator.py:423, 473 (assignment to self._distance) *)
  Definition w_dist v s := MkNS (ns_front s) (ns_ideal s) (ns_nadir s) (ns_vars s) (ns_lb s) (ns_ub s) (ns_bounds s) (ns_idx s) (ns_step s) (ns_left s) v (ns_speed s) (ns_ref s) (ns_nav s) (ns_proj s).
  (* /repo/desdeo_mcdm: NautilusNavigator.py:422, 479 (assignment to self._reachable_idx) *)
  Definition w_idx v s := MkNS (ns_front s) (ns_ideal s) (ns_nadir s) (ns_vars s) (ns_lb s) (ns_ub s) (ns_bounds s) v (ns_step s) (ns_left s) (ns_dist s) (ns_speed s) (ns_ref s) (ns_nav s) (ns_proj s).
  (* /repo/desdeo_mcdm: NautilusNavigator.py:417, 424, 486-487 (assignment to self._step_number, self._steps_remaining) *)
  Definition w_count a b s := MkNS (ns_front s) (ns_ideal s) (ns_nadir s) (ns_vars s) (ns_lb s) (ns_ub s) (ns_bounds s) (ns_idx s) a b (ns_dist s) (ns_speed s) (ns_ref s) (ns_nav s) (ns_proj s).
  (* /repo/desdeo_mcdm: NautilusNavigator.py:266, 606 (the array that self._pareto_front refers to) *)
  Definition w_front v s := MkNS v (ns_ideal s) (ns_nadir s) (ns_vars s) (ns_lb s) (ns_ub s) (ns_bounds s) (ns_idx s) (ns_step s) (ns_left s) (ns_dist s) (ns_speed s) (ns_ref s) (ns_nav s) (ns_proj s).

  (** [self._projection_index] is None before the first projection; the code then
      indexes the front with None, which is never reached (see the proofs): a
      TypeError here. *)
  (* /repo/desdeo_mcdm: NautilusNavigator.py:448, 469 (self._projection_index may be None) *)
  Definition some_or {A} (e : exn) (o : option A) : res A :=
    match o with Some a => Ok a | None => Raise e end.

  (** update, forward branch.  The method's front is the array at
      location 0 of a heap; what is there afterwards is written back. *)
  (* /repo/desdeo_mcdm: NautilusNavigator.py:429-489 *)
  Definition nv_forward (asf : asf_fn) (ref : vec) (speed : pyval N) (bounds : vec)
    : SE nv_state nv_request :=
    s <-- sget ;;
    again <-- (if (ns_step s =? 1)%Z then sret true
               else r0 <-- lift (some_or TypeErr (ns_ref s)) ;;
                    c <-- lift (allclose ref r0) ;; sret (negb c)) ;;
    (if again : bool then
       (if (ns_step s =? 1)%Z then smod (w_speed (Some speed)) else sret tt) ;;;
       r <-- lift (nv_solve asf [ns_front s] 0 (ns_idx s) ref (ns_ideal s) (ns_nadir s) (ns_bounds s)) ;;
       f' <-- lift (h_get (fst r) 0) ;;
       smod (w_front f') ;;;
       smod (w_proj (Some ref) (Some (snd r)))
     else sret tt) ;;;
    s1 <-- sget ;;
    pi <-- lift (some_or TypeErr (ns_proj s1)) ;;
    proj <-- lift (at_ (ns_front s1) pi) ;;
    nav <-- lift (nv_nav_point proj (ns_nav s1) (ns_left s1)) ;;
    smod (w_nav nav bounds) ;;;
    (* self._pareto_front[self._reachable_idx] allocates a copy *)
    rows <-- lift (take (ns_front s1) (idx_list (ns_idx s1))) ;;
    let (h, l) := h_new [ns_front s1] rows in
    b <-- lift (nv_bounds h l (length (ns_nadir s1)) nav bounds (ns_lb s1) (ns_ub s1)) ;;
    f' <-- lift (h_get (fst b) 0) ;;
    smod (w_front f') ;;;
    smod (w_lu (fst (snd b)) (snd (snd b))) ;;;
    s2 <-- sget ;;
    proj2 <-- lift (at_ (ns_front s2) pi) ;;
    d <-- lift (nv_distance nav proj2 (ns_nadir s2)) ;;
    smod (w_dist d) ;;;
    idx <-- lift (nv_reachable (ns_front s2) (ns_lb s2) (ns_ub s2)) ;;
    smod (w_idx idx) ;;;
    s3 <-- sget ;;
    (if (ns_left s3 =? 1)%Z then sret tt
     else smod (w_count (ns_step s3 + 1) (ns_left s3 - 1))) ;;;
    s4 <-- sget ;;
    sret (nv_request_of s4).

  (** update, go_to_previous branch, with the values that
      handle_request takes from the request's content. *)
  (* /repo/desdeo_mcdm: NautilusNavigator.py:415-427 *)
  Definition nv_back (c : nv_content) (bounds : vec) : SE nv_state nv_request :=
    smod (fun s => MkNS (ns_front s) (ns_ideal s) (ns_nadir s) (ns_vars s)
                        (nc_lb c) (nc_ub c) bounds (nc_idx c) (nc_step c) (nc_left c)
                        (nc_dist c) (ns_speed s) (ns_ref s) (nc_nav c) (ns_proj s)) ;;;
    s <-- sget ;;
    sret (nv_request_of s).

  (** NautilusNavigatorStopRequest.__init__. *)
  (* /repo/desdeo_mcdm: NautilusNavigator.py:17-40 *)
  Definition nv_stop (front : mat) (vars : option mat) (idx : idxarr) : res nv_request :=
    do decs <- match vars with
               | None => Ok None
               | Some v => rmap Some (take v (idx_list idx))
               end;
    do objs <- take front (idx_list idx);
    Ok (NStop objs decs idx).

  (** iterate / handle_request.  iterate does not look at the type
      of the request: a stop request given a response is handled as well. *)
  (* /repo/desdeo_mcdm: NautilusNavigator.py:302-359 *)
  Definition nv_iterate (asf : asf_fn) (q : nv_request) (resp : option nv_dict)
    : SE nv_state nv_request :=
    match resp with
    | None => sraise TypeErr
    | Some d =>
        ref <-- lift (key (nd_ref d)) ;;
        speed <-- lift (key (nd_speed d)) ;;
        prev <-- lift (key (nd_prev d)) ;;
        ub <-- lift (key (nd_bounds d)) ;;
        stop <-- lift (key (nd_stop d)) ;;
        match q with
        | NStop _ _ idx =>
            s <-- sget ;;
            if truthy stop then lift (nv_stop (ns_front s) (ns_vars s) idx)
            else if truthy prev then sraise KeyErr   (* content["step_number"] *)
            else nv_forward asf ref speed (to_floats ub)
        | NReq c =>
            s <-- sget ;;
            if truthy stop then lift (nv_stop (ns_front s) (ns_vars s) (nc_idx c))
            else if truthy prev then nv_back c (to_floats ub)
            else nv_forward asf ref speed (to_floats ub)
        end
    end.

  (** Any history of one method object: every request issued so far may be
      answered (again) with any response its validator accepts.  [asf] is fixed. *)
  (* /repo/desdeo_mcdm: NautilusNavigator.py:203-489 (all histories of one object) *)
  Inductive nv_reach (asf : asf_fn) (front : mat) (ideal nadir : vec) (vars : option mat)
    : nv_state -> list nv_request -> Prop :=
  | nv_reach_init :
      nv_reach asf front ideal nadir vars (nv_init front ideal nadir vars)
               [nv_start (nv_init front ideal nadir vars)]
  | nv_reach_step s qs c d s' out :
      nv_reach asf front ideal nadir vars s qs ->
      In (NReq c) qs ->
      nv_validate c d = Ok tt ->
      nv_iterate asf (NReq c) (Some d) s = (s', out) ->
      nv_reach asf front ideal nadir vars s'
               (match out with Ok q' => q' :: qs | Raise _ => qs end).
End Navigator.
Arguments nv_content : clear implicits.
Arguments nv_request : clear implicits.
Arguments nv_dict : clear implicits.
Arguments nv_state : clear implicits.
