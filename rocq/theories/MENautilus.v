(** * Model of E-NAUTILUS: desdeo_mcdm/interactive/ENautilus.py *)
From Coq Require Import ZArith List Bool Lia.
From Verif Require Import Num Py Np.
Import ListNotations.

(** ENautilus.__init__, on the shapes of its arguments.
    [ideal.shape[0]] on a 0-d array raises IndexError; an empty name list is
    falsy, hence treated like None. *)
(* /repo/desdeo_mcdm: ENautilus.py:199-225 *)
Definition en_ctor_check (front_shape ideal_shape nadir_shape : list nat)
           (n_names : option nat) : res unit :=
  match front_shape with
  | [_; ncols] =>
      match ideal_shape with
      | [] => Raise IndexErr
      | k :: _ =>
          if negb (Nat.eqb k ncols) then Raise MethodExn
          else if negb (if list_eq_dec Nat.eq_dec ideal_shape nadir_shape then true else false)
          then Raise MethodExn
          else match n_names with
               | Some (S n) => if negb (Nat.eqb (S n) k) then Raise MethodExn else Ok tt
               | _ => Ok tt
               end
      end
  | _ => Raise MethodExn
  end.

Section ENautilus.
  Context {N : NumOps}.
  Notation vec := (list N).
  Notation mat := (list (list N)).

  (** ENautilusRequest.__init__ content. *)
  (* /repo/desdeo_mcdm: ENautilus.py:96-105 *)
  Record en_content := MkEC {
    ec_ideal : vec; ec_nadir : vec; ec_points : mat; ec_lb : mat; ec_ub : mat;
    ec_left : Z; ec_dist : vec }.

  (** The three request classes.  [max_index] is
      [ENautilusRequest._max_index]. *)
  (* /repo/desdeo_mcdm: ENautilus.py:18-64, 67-151, 154-165 *)
  Inductive en_request :=
  | EInit (ideal nadir : vec)
  | EReq (max_index : nat) (c : en_content)
  | EStop (objective : vec) (solution : option vec).

  (** A response dictionary; [None] means that the key is absent.  Truthiness of
      'step_back' and 'change_remaining' is a bool; 'iterations_left' is an int
      (other types are not modelled).  [d_new_iterations_left] is the key named
      by the request's message, which the code never reads. *)
  (* /repo/desdeo_mcdm: ENautilus.py:36-55, 109-144 (the keys that are read) *)
  Record en_dict := MkED {
    d_n_iterations : option (pyval N);
    d_n_points : option (pyval N);
    d_index : option Z;
    d_step_back : option bool;
    d_change : option bool;
    d_iterations_left : option Z;
    d_new_iterations_left : option Z;
    d_prev_solutions : option mat;
    d_prev_lb : option mat;
    d_prev_ub : option mat;
    d_prev_dist : option vec }.

  (** Attributes of the method object (objective names only matter
      in the constructor; _projection_index is never used). *)
  (* /repo/desdeo_mcdm: ENautilus.py:227-246 *)
  Record en_state := MkES {
    es_front : mat; es_ideal : vec; es_nadir : vec; es_vars : option mat;
    es_ub : vec; es_lb : vec; es_idx : idxarr;
    es_pref : option vec; es_npoints : option Z; es_left : option Z }.

  (** ENautilusInitialRequest.validator. *)
  (* /repo/desdeo_mcdm: ENautilus.py:36-55 *)
  Definition en_validate_init (d : en_dict) : res unit :=
    match d_n_iterations d with
    | None => Raise MethodExn
    | Some ni =>
        match d_n_points d with
        | None => Raise MethodExn
        | Some np =>
            match as_int ni with
            | None => Raise MethodExn
            | Some zi =>
                if (zi <? 1)%Z then Raise MethodExn
                else match as_int np with
                     | None => Raise MethodExn
                     | Some zp => if (zp <? 1)%Z then Raise MethodExn else Ok tt
                     end
            end
        end
    end.

  (** ENautilusRequest.validator. *)
  (* /repo/desdeo_mcdm: ENautilus.py:109-144 *)
  Definition en_validate_req (max_index : nat) (d : en_dict) : res unit :=
    match d_index d, d_step_back d, d_change d with
    | Some i, Some sb, Some ch =>
        if negb sb then
          if (i <? 0)%Z || (Z.of_nat max_index <? i)%Z then Raise MethodExn
          else if ch then
                 match d_iterations_left d with None => Raise MethodExn | Some _ => Ok tt end
               else Ok tt
        else
          match d_prev_solutions d, d_prev_lb d, d_prev_ub d, d_iterations_left d, d_prev_dist d with
          | Some _, Some _, Some _, Some _, Some _ => Ok tt
          | _, _, _, _, _ => Raise MethodExn
          end
    | _, _, _ => Raise MethodExn
    end.

  (** Assigning [request.response = d]; the stop request
      has no validator of its own. *)
  (* /repo/desdeo_mcdm: ENautilus.py:61-64, 148-151 *)
  Definition en_validate (q : en_request) (d : en_dict) : res unit :=
    match q with
    | EInit _ _ => en_validate_init d
    | EReq mi _ => en_validate_req mi d
    | EStop _ _ => Ok tt
    end.

  (** [len(np.squeeze(points))]: all axes of length 1 are removed; the
      length of a 0-d array is a TypeError. *)
  (* /repo/desdeo_mcdm: ENautilus.py:82 *)
  Definition en_max_index (points : mat) : res nat :=
    match points with
    | [r] => if Nat.eqb (length r) 1 then Raise TypeErr else Ok (length r)
    | _ => Ok (length points)
    end.

  (** ENautilusRequest.__init__. *)
  (* /repo/desdeo_mcdm: ENautilus.py:72-107 *)
  Definition en_mk_request (c : en_content) : res en_request :=
    rmap (fun mi => EReq mi c) (en_max_index (ec_points c)).

  (** KMeans(n_clusters=n).fit(rows) followed by
      pairwise_distances_argmin_min(centers, rows): the positions in [rows] of
      the rows closest to the centers.  An oracle. *)
  (* /repo/desdeo_mcdm: ENautilus.py:387-393 (scikit-learn, oracle) *)
  Definition km_oracle : Type := mat -> Z -> res (list nat).

  (** calculate_representative_points.  A 0-d [subset_indices]
      makes [zbars] a single row; it is only used through numpy broadcasting and
      np.atleast_2d, so it is represented by the 1-row matrix. *)
  (* /repo/desdeo_mcdm: ENautilus.py:365-395 *)
  Definition en_representatives (km : km_oracle) (front : mat) (idx : idxarr) (n_points : Z) : res mat :=
    do rows <- take front (idx_list idx);
    if (n_points <? Z.of_nat (length (idx_list idx)))%Z then
      do closest <- km rows n_points;
      take rows closest
    else Ok rows.

  (** calculate_intermediate_points.  Python's int/int division
      raises ZeroDivisionError; it is identified with the division of the two
      floats. *)
  (* /repo/desdeo_mcdm: ENautilus.py:397-413 *)
  Definition en_intermediate (p : vec) (zbars : mat) (n : Z) : res mat :=
    if (n =? 0)%Z then Raise ZeroDivErr
    else
      let c1 := ndiv (nofZ (n - 1)) (nofZ n) in
      let c2 := ndiv (nofZ 1) (nofZ n) in
      rseq (map (fun zb => bcast2 nadd (vscale c1 p) (vscale c2 zb)) zbars).

  (** One (point, objective) cell of calculate_bounds: the values
      of objective [r] of the rows that satisfy the other components of the
      point. [front] is a 2-D array with k > r columns. *)
  (* /repo/desdeo_mcdm: ENautilus.py:436-446 *)
  Definition en_cell (front : mat) (point : vec) (r : nat) : vec :=
    map (fun row => nth r row nnan)
        (filter (fun row => all_le (drop_at r row) (drop_at r point)) front).

  (* /repo/desdeo_mcdm: ENautilus.py:432-449 (one point) *)
  Definition en_bounds1 (front : mat) (k : nat) (point : vec) : res (vec * vec) :=
    if negb (Nat.eqb (length point) k) then Raise IndexErr
    else
      do cells <- rseq (map (fun r =>
                     do lo <- npmin (en_cell front point r);
                     do hi <- npmax (en_cell front point r);
                     Ok (lo, hi)) (seq 0 k));
      Ok (map fst cells, map snd cells).

  (** calculate_bounds. [k] is front.shape[1]. *)
  (* /repo/desdeo_mcdm: ENautilus.py:415-451 *)
  Definition en_bounds (front : mat) (k : nat) (points : mat) : res (mat * mat) :=
    do bs <- rseq (map (en_bounds1 front k) points);
    Ok (map fst bs, map snd bs).

  (** calculate_distances. *)
  (* /repo/desdeo_mcdm: ENautilus.py:453-471 *)
  Definition en_distances (points zbars : mat) (nadir : vec) : res vec :=
    do a <- rseq (map (fun z => bcast2 nsub z nadir) points);
    do b <- rseq (map (fun z => bcast2 nsub z nadir) zbars);
    do q <- bcast2 (fun x y => ndiv x y) (map vnorm a) (map vnorm b);
    Ok (map (fun x => nmul x (nofZ 100)) q).

  (** One row of the comparison [np.all(front >= lb) & np.all(front <= ub)]. *)
  (* /repo/desdeo_mcdm: ENautilus.py:485-488 *)
  Definition row_in_box (row lb ub : vec) : res bool :=
    do lo <- bcast2 (fun x y => nleb y x) row lb;
    do hi <- bcast2 nleb row ub;
    Ok (forallb (fun b => b) lo && forallb (fun b => b) hi).

  (** calculate_reachable_point_indices. *)
  (* /repo/desdeo_mcdm: ENautilus.py:473-490 *)
  Definition en_reachable (front : mat) (lb ub : vec) : res idxarr :=
    do m <- rseq (map (fun row => row_in_box row lb ub) front);
    Ok (squeeze_idx (argwhere m)).

  (** ENautilus.__init__, after the checks. *)
  (* /repo/desdeo_mcdm: ENautilus.py:227-246 *)
  Definition en_init (front : mat) (ideal nadir : vec) (vars : option mat) : en_state :=
    MkES front ideal nadir vars nadir ideal (IList (seq 0 (length front))) None None None.

  (** start. *)
  (* /repo/desdeo_mcdm: ENautilus.py:248-249 *)
  Definition en_start (s : en_state) : en_request := EInit (es_ideal s) (es_nadir s).

  (* /repo/desdeo_mcdm: ENautilus.py:274, 305 (assignment to self._preferred_point) *)
  Definition set_pref p s := MkES (es_front s) (es_ideal s) (es_nadir s) (es_vars s) (es_ub s) (es_lb s) (es_idx s) p (es_npoints s) (es_left s).
  (* /repo/desdeo_mcdm: ENautilus.py:271, 308, 331, 333, 352 (assignment to self._n_iterations_left) *)
  Definition set_left n s := MkES (es_front s) (es_ideal s) (es_nadir s) (es_vars s) (es_ub s) (es_lb s) (es_idx s) (es_pref s) (es_npoints s) n.
  (* /repo/desdeo_mcdm: ENautilus.py:272 (assignment to self._n_points) *)
  Definition set_npoints n s := MkES (es_front s) (es_ideal s) (es_nadir s) (es_vars s) (es_ub s) (es_lb s) (es_idx s) (es_pref s) n (es_left s).
  (* /repo/desdeo_mcdm: ENautilus.py:322 (assignment to self._reachable_lb) *)
  Definition set_lb v s := MkES (es_front s) (es_ideal s) (es_nadir s) (es_vars s) (es_ub s) v (es_idx s) (es_pref s) (es_npoints s) (es_left s).
  (* /repo/desdeo_mcdm: ENautilus.py:323 (assignment to self._reachable_ub) *)
  Definition set_ub v s := MkES (es_front s) (es_ideal s) (es_nadir s) (es_vars s) v (es_lb s) (es_idx s) (es_pref s) (es_npoints s) (es_left s).
  (* /repo/desdeo_mcdm: ENautilus.py:325 (assignment to self._reachable_idx) *)
  Definition set_idx v s := MkES (es_front s) (es_ideal s) (es_nadir s) (es_vars s) (es_ub s) (es_lb s) v (es_pref s) (es_npoints s) (es_left s).

  (** Arithmetic on an attribute that may still be None is a TypeError. *)
  (* /repo/desdeo_mcdm: ENautilus.py:308, 336-345 (reads of attributes initialised to None at 242-246) *)
  Definition some_or_type {A} (o : option A) : res A :=
    match o with Some a => Ok a | None => Raise TypeErr end.

  (** Common tail of the handlers: representatives,
      intermediate points, bounds, distances, new request. *)
  (* /repo/desdeo_mcdm: ENautilus.py:276-295, 336-345, 355-363 *)
  Definition en_next (km : km_oracle) : SE en_state en_request :=
    s <-- sget ;;
    np <-- lift (some_or_type (es_npoints s)) ;;
    p <-- lift (some_or_type (es_pref s)) ;;
    n <-- lift (some_or_type (es_left s)) ;;
    zbars <-- lift (en_representatives km (es_front s) (es_idx s) np) ;;
    zs <-- lift (en_intermediate p zbars n) ;;
    b <-- lift (en_bounds (es_front s) (length (es_nadir s)) zs) ;;
    ds <-- lift (en_distances zs zbars (es_nadir s)) ;;
    lift (en_mk_request (MkEC (es_ideal s) (es_nadir s) zs (fst b) (snd b) n ds)).

  (** handle_initial_request. *)
  (* /repo/desdeo_mcdm: ENautilus.py:265-295 *)
  Definition en_handle_initial (km : km_oracle) (d : en_dict) : SE en_state en_request :=
    ni <-- lift (key (d_n_iterations d)) ;;
    smod (set_left (as_int ni)) ;;;
    np <-- lift (key (d_n_points d)) ;;
    smod (set_npoints (as_int np)) ;;;
    smod (fun s => set_pref (Some (es_nadir s)) s) ;;;
    en_next km.

  (** Lines 313-320: the nearest front row's decision vector. *)
  (* /repo/desdeo_mcdm: ENautilus.py:313-320 *)
  Definition en_stop (s : en_state) (p : vec) : res en_request :=
    match es_vars s with
    | None => Ok (EStop p None)
    | Some vars =>
        do diffs <- rseq (map (fun row => bcast2 nsub row p) (es_front s));
        do i <- npargmin (map (fun d => vnorm (map nabs d)) diffs);
        do x <- at_ vars i;
        Ok (EStop p (Some x))
    end.

  (** handle_request. *)
  (* /repo/desdeo_mcdm: ENautilus.py:297-363 *)
  Definition en_handle_request (km : km_oracle) (c : en_content) (d : en_dict) : SE en_state en_request :=
    sb <-- lift (key (d_step_back d)) ;;
    if negb sb then
      i <-- lift (key (d_index d)) ;;
      p <-- lift (py_nth (ec_points c) i) ;;
      smod (set_pref (Some p)) ;;;
      s <-- sget ;;
      n <-- lift (some_or_type (es_left s)) ;;
      if (n <=? 1)%Z then
        smod (set_left (Some 0%Z)) ;;;
        s' <-- sget ;;
        lift (en_stop s' p)
      else
        lb <-- lift (py_nth (ec_lb c) i) ;;
        smod (set_lb lb) ;;;
        ub <-- lift (py_nth (ec_ub c) i) ;;
        smod (set_ub ub) ;;;
        s' <-- sget ;;
        ri <-- lift (en_reachable (es_front s') (es_lb s') (es_ub s')) ;;
        smod (set_idx ri) ;;;
        ch <-- lift (key (d_change d)) ;;
        (if negb ch then smod (set_left (Some (n - 1)%Z))
         else n' <-- lift (key (d_iterations_left d)) ;; smod (set_left (Some n'))) ;;;
        en_next km
    else
      zs <-- lift (key (d_prev_solutions d)) ;;
      lbs <-- lift (key (d_prev_lb d)) ;;
      ubs <-- lift (key (d_prev_ub d)) ;;
      n <-- lift (key (d_iterations_left d)) ;;
      smod (set_left (Some n)) ;;;
      ds <-- lift (key (d_prev_dist d)) ;;
      s <-- sget ;;
      lift (en_mk_request (MkEC (es_ideal s) (es_nadir s) zs lbs ubs n ds)).

  (** iterate.  [resp = None]: the response was never set, and
      subscripting None is a TypeError. *)
  (* /repo/desdeo_mcdm: ENautilus.py:251-263 *)
  Definition en_iterate (km : km_oracle) (q : en_request) (resp : option en_dict)
    : SE en_state en_request :=
    match q with
    | EInit _ _ =>
        match resp with
        | None => sraise TypeErr
        | Some d => en_handle_initial km d
        end
    | EReq _ c =>
        match resp with
        | None => sraise TypeErr
        | Some d => en_handle_request km c d
        end
    | EStop _ _ => sret q
    end.

  (** Everything that can happen to one method object: from the constructor, any
      request issued so far may be answered (again) with any response its
      validator accepts, or iterated without a response; a raising [iterate]
      leaves whatever it had already mutated. Each call may see a different
      outcome of the randomised clustering. *)
  (* /repo/desdeo_mcdm: ENautilus.py:168-363 (all histories of one object) *)
  Inductive en_reach (front : mat) (ideal nadir : vec) (vars : option mat)
    : en_state -> list en_request -> Prop :=
  | en_reach_init :
      en_reach front ideal nadir vars (en_init front ideal nadir vars)
               [en_start (en_init front ideal nadir vars)]
  | en_reach_step s qs q resp km s' out :
      en_reach front ideal nadir vars s qs ->
      In q qs ->
      (forall d, resp = Some d -> en_validate q d = Ok tt) ->
      en_iterate km q resp s = (s', out) ->
      en_reach front ideal nadir vars s'
               (match out with Ok q' => q' :: qs | Raise _ => qs end).
End ENautilus.
Arguments en_content : clear implicits.
Arguments en_request : clear implicits.
Arguments en_dict : clear implicits.
Arguments en_state : clear implicits.
