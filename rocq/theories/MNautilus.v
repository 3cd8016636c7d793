(** * Model of NAUTILUS (desdeo_mcdm/interactive/Nautilus.py, "V1" below) and of
    NAUTILUS 2 (desdeo_mcdm/interactive/NautilusV2.py, "V2").

    The two classes share their text except for what is under [nt_variant]: the
    starting point, the slot the bounds are kept in, the rule for changing the
    number of iterations, and the preference information.

    Simplifications: messages, objective names and multipliers are not part of
    the state (never read after construction); so are the last preference
    information, factors and reference point and the flags,
    which are written but never read.  The numbers of iterations are 0 (Python:
    None) before the initial request is handled; no request that reads them has
    been issued by then.  The object arrays that replace the lists when the
    number of iterations grows (V1 565-574, V2 625-634) hold the same elements:
    numpy 1.23.5, the version of poetry.lock, makes an object array of a list of
    arrays and Nones (from 1.24 on it raises ValueError).  There always is a None among
    them, with one exception: in V2, when a call has failed with IndexError because the
    number of iterations was set too high (C49), all slots of the iteration points are
    taken, and a later larger number of iterations makes numpy flatten them; what an
    object does after that is not modelled. *)
From Coq Require Import ZArith List Bool Lia.
From Verif Require Import Num Py Np.
Import ListNotations.

Section Nautilus.
  Context {N : NumOps}.
  Notation vec := (list N).
  Notation mat := (list (list N)).

  (** MOProblem: objectives (row 0), constraints, half of the upper bounds of
      the variables (the starting point of every optimization), what
      ScalarMinimizer.minimize returns as result["x"] for the achievement
      function ReferencePointASF(w, nadir, utopian, rho) and a reference point
      (V1 842-852 with rho 1e-6, V2 954-964 with rho 1e-5; no constraint evaluator
      is passed), and what it returns for the epsilon-constraint problem of
      objective i with the bounds [eps] for the others (V1 905-917), which does
      pass the constraints. *)
  (* /repo/desdeo_mcdm: Nautilus.py:366-372, 409-419; NautilusV2.py:425-431, 469-479 *)
  Record nt_problem := MkNP {
    np_eval : vec -> vec; np_constr : option (vec -> vec); np_x0 : vec;
    np_min : vec -> vec -> vec -> vec -> vec -> res vec;
    np_ecm : nat -> vec -> vec -> res vec }.

  (** V2 has its own starting point; [fuel] bounds the passes of the loop of
      calculate_doi (see [doi_loop]). *)
  (* /repo/desdeo_mcdm: Nautilus.py:280; NautilusV2.py:336, 435, 899-915 *)
  Inductive nt_variant := NV1 | NV2 (start : vec) (fuel : nat).

  (** ** Responses *)
  (** preference_info: a numeric array, a list of numbers, a sequence of
      ((i, j), ratio) entries, or something without a length. *)
  (* /repo/desdeo_mcdm: Nautilus.py:66-96; NautilusV2.py:66-153 (response["preference_info"]) *)
  Inductive nt_info : Type :=
  | PArr (v : vec) | PList (v : vec) | PPairs (l : list (list (pyval N) * pyval N)) | POther.
  (* /repo/desdeo_mcdm: Nautilus.py:34-50, 544-754; NautilusV2.py:34-50, 604-813 (the keys that are read) *)
  Record nt_dict := MkND {
    nd_n : option (pyval N); nd_back : option (pyval N); nd_short : option (pyval N);
    nd_prev : option (pyval N); nd_method : option (pyval N); nd_info : option nt_info }.

  (* /repo/desdeo_mcdm: Nautilus.py:75, 87; NautilusV2.py:87, 106 (len) *)
  Definition info_len (i : nt_info) : res nat :=
    match i with
    | PArr v | PList v => Ok (length v) | PPairs l => Ok (length l) | POther => Raise TypeErr
    end.

  (** Python's max of a sequence of numbers: the first element that no later one exceeds. *)
  (* /repo/desdeo_mcdm: Nautilus.py:80 (max) *)
  Definition pymax (v : vec) : res N :=
    match v with [] => Raise ValueErr | x :: v' => Ok (fold_left (fun m y => if nltb m y then y else m) v' x) end.

  (** V1 validate_preferences, once the two entries are known to be
      there.  Tuples cannot be compared with or added to a number. *)
  (* /repo/desdeo_mcdm: Nautilus.py:53-96 *)
  Definition nt1_check (k : nat) (m : pyval N) (i : nt_info) : res unit :=
    if negb (py_eq m 1 || py_eq m 2) then Raise MethodExn
    else
      do n <- info_len i;
      if Nat.ltb n k then Raise MethodExn
      else
        do v <- match i with PArr v | PList v => Ok v | PPairs _ | POther => Raise TypeErr end;
        if py_eq m 1 then
          do x <- pymax v;
          if nleb (nofZ 1) x && nleb x (nofZ (Z.of_nat k)) then Ok tt else Raise MethodExn
        else
          if neqb (vsum v) (nofZ 100) then Ok tt else Raise MethodExn.

  (** One entry of the pairs, V2: the objectives it mentions. *)
  (* /repo/desdeo_mcdm: NautilusV2.py:118-135 *)
  Fixpoint nt2_objs (k : nat) (objs : list (pyval N)) : res (list nat) :=
    match objs with
    | [] => Ok []
    | o :: objs' =>
        match as_int o with
        | None => Raise MethodExn
        | Some z =>
            if (z <=? 0)%Z then Raise MethodExn
            else if (z <=? Z.of_nat k)%Z then rmap (cons (Z.to_nat z)) (nt2_objs k objs')
            else Raise MethodExn
        end
    end.
  (** isinstance(ratio, int) or isinstance(ratio, float), and its value. *)
  (* /repo/desdeo_mcdm: NautilusV2.py:137 (isinstance tests) *)
  Definition ratio_val (r : pyval N) : option N :=
    match r with VInt z => Some (nofZ z) | VBool b => Some (nofZ (bool2Z b)) | VFloat x _ => Some x | _ => None end.
  (* /repo/desdeo_mcdm: NautilusV2.py:116-147 (one entry) *)
  Definition nt2_pair (k : nat) (e : list (pyval N) * pyval N) : res (list nat) :=
    do os <- nt2_objs k (fst e);
    match ratio_val (snd e) with
    | None => Raise MethodExn
    | Some r => if nleb r (nofZ 0) then Raise MethodExn else Ok os
    end.

  (** V2 validate_n2_preferences.  A comparison of a list or of
      tuples with a number raises TypeError; element [0] of a numpy number raises
      IndexError, of a Python number TypeError. *)
  (* /repo/desdeo_mcdm: NautilusV2.py:53-153 *)
  Definition nt2_check (k : nat) (m : pyval N) (i : nt_info) : res unit :=
    if negb (py_eq m 1 || py_eq m 2 || py_eq m 3) then Raise MethodExn
    else if py_eq m 1 || py_eq m 2 then
      do v <- match i with PArr v => Ok v | _ => Raise TypeErr end;
      if existsb (fun x => nleb x (nofZ 0)) v then Raise MethodExn
      else if Nat.ltb (length v) k then Raise MethodExn
      else if py_eq m 2 && negb (existsb (fun x => neqb x (nofZ 1)) v) then Raise MethodExn
      else Ok tt
    else
      do n <- info_len i;
      if negb (Z.of_nat n =? Z.of_nat k - 1)%Z then Raise MethodExn
      else
        do ms <- match i with
                 | PPairs l => rseq (map (nt2_pair k) l)
                 | PArr [] | PList [] => Ok []
                 | PArr _ => Raise IndexErr
                 | _ => Raise TypeErr
                 end;
        if forallb (fun o => existsb (Nat.eqb o) (concat ms)) (seq 1 k) then Ok tt else Raise MethodExn.

  (* /repo/desdeo_mcdm: Nautilus.py:53-96; NautilusV2.py:53-153 *)
  Definition nt_check_pref (v : nt_variant) (k : nat) (d : nt_dict) : res unit :=
    match nd_method d, nd_info d with
    | Some m, Some i => match v with NV1 => nt1_check k m i | NV2 _ _ => nt2_check k m i end
    | _, _ => Raise MethodExn
    end.

  (** validate_n_iterations. *)
  (* /repo/desdeo_mcdm: Nautilus.py:99-116; NautilusV2.py:156-173 *)
  Definition nt_check_n (n : pyval N) : res unit :=
    match as_int n with Some z => if (z <? 1)%Z then Raise MethodExn else Ok tt | None => Raise MethodExn end.

  (** np.array_equal of two 1-D arrays *)
  (* /repo/desdeo_mcdm: NautilusV2.py:66-153 (np.array_equal, numpy) *)
  Definition array_equal (a b : vec) : bool :=
    Nat.eqb (length a) (length b) && forallb (fun x => x) (zipw neqb a b).

  (** ** Requests *)
  (* /repo/desdeo_mcdm: Nautilus.py:127-190, 193-256, 259-277; NautilusV2.py:184-244, 247-317, 320-333 *)
  Inductive nt_request : Type :=
  | NInit
  | NReq (z : vec) (lower upper : vec) (dist : N)
  | NStop (x f : option vec).       (* None if the buffer holds None *)

  (** validate_response, as the response setters call it; a stop request takes any response. *)
  (* /repo/desdeo_mcdm: Nautilus.py:17-50, 178-190, 246-256; NautilusV2.py:17-50, 232-244, 307-317 *)
  Definition nt_validate (v : nt_variant) (nadir : vec) (q : nt_request) (d : nt_dict) : res unit :=
    match q with
    | NInit =>
        match nd_n d, nd_back d, nd_prev d with
        | Some n, None, None => do _ <- nt_check_pref v (length nadir) d; nt_check_n n
        | _, _, _ => Raise MethodExn
        end
    | NReq z _ _ _ =>
        do b <- key (nd_back d);
        if truthy b && array_equal z nadir then Raise MethodExn
        else
          do u <- key (nd_prev d);
          do _ <- (if truthy u then Ok tt else nt_check_pref v (length nadir) d);
          match nd_n d with Some n => nt_check_n n | None => Ok tt end
    | NStop _ _ => Ok tt
    end.

  (** ** Preference information into weights *)
  (** V1 calculate_preferential_factors: zip stops at the shorter;
      a list cannot be divided by 100. *)
  (* /repo/desdeo_mcdm: Nautilus.py:805-809 *)
  Fixpoint nt1_weights (f : vec) (nadir utopian : vec) : vec :=
    match f, nadir, utopian with
    | r :: f', n :: nadir', u :: utopian' => ndiv (nofZ 1) (nmul r (nsub n u)) :: nt1_weights f' nadir' utopian'
    | _, _, _ => []
    end.
  (* /repo/desdeo_mcdm: Nautilus.py:756-809 *)
  Definition nt1_factors (m : pyval N) (i : nt_info) (nadir utopian : vec) : res vec :=
    if py_eq m 1 then
      match i with PArr v | PList v => Ok (nt1_weights v nadir utopian) | _ => Raise TypeErr end
    else if py_eq m 2 then
      match i with
      | PArr v => Ok (nt1_weights (map (fun x => ndiv x (nofZ 100)) v) nadir utopian)
      | _ => Raise TypeErr
      end
    else Raise TypeErr.

  (** V2 calculate_doi.  A validated pair as numbers. *)
  (* /repo/desdeo_mcdm: NautilusV2.py:881-915 (an entry of pref_info) *)
  Definition doi_pair (e : list (pyval N) * pyval N) : res (Z * Z * N) :=
    match fst e, ratio_val (snd e) with
    | o1 :: o2 :: _, Some r =>
        match as_int o1, as_int o2 with Some a, Some b => Ok (a, b, r) | _, _ => Raise TypeErr end
    | _, None => Raise TypeErr
    | _, _ => Raise IndexErr
    end.
  (** [1 / ratio] for a Python number *)
  (* /repo/desdeo_mcdm: NautilusV2.py:892, 909 (1 / elem[1]) *)
  Definition doi_inv (r : N) : res N := if neqb r (nofZ 0) then Raise ZeroDivErr else Ok (ndiv (nofZ 1) r).
  (** [deltas[i - 1] = d] for a numpy array *)
  (* /repo/desdeo_mcdm: NautilusV2.py:889, 893, 909, 913 (assignment to deltas) *)
  Definition doi_set (ds : vec) (i : Z) (d : N) : res vec :=
    match py_pos (length ds) (i - 1) with Some j => set_ ds j d | None => Raise IndexErr end.
  (** Lines 881-893, an entry of the first pass. *)
  (* /repo/desdeo_mcdm: NautilusV2.py:884-893 *)
  Definition doi_first (ds : vec) (p : Z * Z * N) : res vec :=
    let '(a, b, r) := p in
    if (a =? 1)%Z then doi_set ds b r
    else if (b =? 1)%Z then do d <- doi_inv r; doi_set ds a d
    else Ok ds.
  (** Lines 903-915, an entry looked at for the missing objective [m]. *)
  (* /repo/desdeo_mcdm: NautilusV2.py:903-913 *)
  Definition doi_entry (m : Z) (ds : vec) (p : Z * Z * N) : res vec :=
    let '(a, b, r) := p in
    if (a =? m)%Z then
      do d <- py_nth ds (b - 1);
      if neqb d (nofZ 0) then Ok ds else do i <- doi_inv r; doi_set ds a (nmul d i)
    else if (b =? m)%Z then
      do d <- py_nth ds (a - 1);
      if neqb d (nofZ 0) then Ok ds else doi_set ds b (nmul d r)
    else Ok ds.
  (* /repo/desdeo_mcdm: NautilusV2.py:884, 902-904 (for loop that may raise) *)
  Fixpoint rfold {A B} (f : A -> B -> res A) (l : list B) (a : A) : res A :=
    match l with [] => Ok a | b :: l' => do a' <- f a b; rfold f l' a' end.
  (** One execution of the body of [while 0 in deltas]. *)
  (* /repo/desdeo_mcdm: NautilusV2.py:901-913 *)
  Definition doi_pass (missing : list Z) (ps : list (Z * Z * N)) (ds : vec) : res vec :=
    rfold (fun ds m => rfold (doi_entry m) ps ds) missing ds.
  (** The loop, for at most [fuel] passes; it may never end. *)
  (* /repo/desdeo_mcdm: NautilusV2.py:899-915 *)
  Fixpoint doi_loop (fuel : nat) (missing : list Z) (ps : list (Z * Z * N)) (ds : vec) : res vec :=
    if existsb (fun d => neqb d (nofZ 0)) ds then
      match fuel with
      | O => Raise Diverges
      | S fuel' => do ds' <- doi_pass missing ps ds; doi_loop fuel' missing ps ds'
      end
    else Ok ds.
  (** Line 897: the objectives (counted from 1) that have no direction yet. *)
  (* /repo/desdeo_mcdm: NautilusV2.py:897 *)
  Definition doi_missing (ds : vec) : list Z :=
    map (fun i => Z.of_nat (S i)) (argwhere (map (fun d => neqb d (nofZ 0)) ds)).
  (* /repo/desdeo_mcdm: NautilusV2.py:863-917 *)
  Definition nt2_doi (fuel k : nat) (l : list (list (pyval N) * pyval N)) : res vec :=
    do ps <- rseq (map doi_pair l);
    do ds0 <- set_ (repeat (nofZ 0) k) 0 (nofZ 1);
    do ds1 <- rfold doi_first ps ds0;
    doi_loop fuel (doi_missing ds1) ps ds1.
  (** V2 calculate_preferential_factors, and the inversion in solve_asf. *)
  (* /repo/desdeo_mcdm: NautilusV2.py:815-861, 955 *)
  Definition nt2_factors (fuel k : nat) (m : pyval N) (i : nt_info) : res vec :=
    if py_eq m 1 || py_eq m 2 then
      match i with PArr v => Ok v | _ => Raise TypeErr end
    else if py_eq m 3 then
      match i with PPairs l => nt2_doi fuel k l | _ => Raise TypeErr end
    else Raise TypeErr.

  (** What ReferencePointASF gets as its weights. *)
  (* /repo/desdeo_mcdm: Nautilus.py:845-852; NautilusV2.py:952-964 *)
  Definition nt_weights (v : nt_variant) (m : pyval N) (i : nt_info) (nadir utopian : vec) : res vec :=
    match v with
    | NV1 => nt1_factors m i nadir utopian
    | NV2 _ fuel => rmap (map (ndiv (nofZ 1))) (nt2_factors fuel (length nadir) m i)
    end.

  (** ** The method object *)
  (* /repo/desdeo_mcdm: Nautilus.py:380-405; NautilusV2.py:440-465 *)
  Record nt_state := MkNT {
    ns_step : nat; ns_n : Z; ns_left : Z;
    ns_zs : list (option vec); ns_xs : list (option vec); ns_fs : list (option vec);
    ns_ds : list (option N); ns_lb : list (option vec); ns_ub : list (option vec) }.

  (** __init__, on the shapes, the number of objective
      names and the length of the minimize list ([None]: not given; an empty list
      is falsy).  The minimize list is not looked at: V1 and V2
      test the names. *)
  (* /repo/desdeo_mcdm: Nautilus.py:346-363; NautilusV2.py:399-422 *)
  Definition nt_ctor_check (v : nt_variant) (ideal nadir : vec) (names minimize : option nat) : res unit :=
    if negb (Nat.eqb (length ideal) (length nadir)) then Raise MethodExn
    else
      do _ <- match v with
              | NV1 => Ok tt
              | NV2 start _ =>
                  if negb (Nat.eqb (length ideal) (length start)) then Raise MethodExn
                  else if forallb (fun x => x) (zipw nltb nadir start) then Raise MethodExn else Ok tt
              end;
      do _ <- match names with
              | Some (S n) => if Nat.eqb (S n) (length ideal) then Ok tt else Raise MethodExn
              | _ => Ok tt
              end;
      match minimize with
      | Some (S _) => match names with
                      | None => Raise TypeErr
                      | Some n => if Nat.eqb n (length ideal) then Ok tt else Raise MethodExn
                      end
      | _ => Ok tt
      end.
  (* /repo/desdeo_mcdm: Nautilus.py:380-405; NautilusV2.py:440-465 *)
  Definition nt_init : nt_state := MkNT 1 0 0 [] [] [] [] [] [].

  (* /repo/desdeo_mcdm: Nautilus.py:475, 480, 513, 565, 626, 665, 724 (assignment to self._zs) *)
  Definition u_zs s v := MkNT (ns_step s) (ns_n s) (ns_left s) v (ns_xs s) (ns_fs s) (ns_ds s) (ns_lb s) (ns_ub s).
  (* /repo/desdeo_mcdm: Nautilus.py:472, 509, 566, 593, 621, 720 (assignment to self._xs) *)
  Definition u_xs s v := MkNT (ns_step s) (ns_n s) (ns_left s) (ns_zs s) v (ns_fs s) (ns_ds s) (ns_lb s) (ns_ub s).
  (* /repo/desdeo_mcdm: Nautilus.py:473, 510, 567, 594, 622, 721 (assignment to self._fs) *)
  Definition u_fs s v := MkNT (ns_step s) (ns_n s) (ns_left s) (ns_zs s) (ns_xs s) v (ns_ds s) (ns_lb s) (ns_ub s).
  (* /repo/desdeo_mcdm: Nautilus.py:474, 531, 568, 645, 682, 743 (assignment to self._ds) *)
  Definition u_ds s v := MkNT (ns_step s) (ns_n s) (ns_left s) (ns_zs s) (ns_xs s) (ns_fs s) v (ns_lb s) (ns_ub s).
  (* /repo/desdeo_mcdm: Nautilus.py:476, 493, 527, 569, 641, 678, 739 (assignment to self._lower_bounds) *)
  Definition u_lb s v := MkNT (ns_step s) (ns_n s) (ns_left s) (ns_zs s) (ns_xs s) (ns_fs s) (ns_ds s) v (ns_ub s).
  (* /repo/desdeo_mcdm: Nautilus.py:477, 494, 528, 572, 642, 679, 740 (assignment to self._upper_bounds) *)
  Definition u_ub s v := MkNT (ns_step s) (ns_n s) (ns_left s) (ns_zs s) (ns_xs s) (ns_fs s) (ns_ds s) (ns_lb s) v.

  (* /repo/desdeo_mcdm: Nautilus.py:480; NautilusV2.py:435, 540 *)
  Definition nt_start (v : nt_variant) (nadir : vec) : vec := match v with NV1 => nadir | NV2 s _ => s end.
  (** The bounds of step h are kept in slot h (V1) or h + 1 (V2). *)
  (* /repo/desdeo_mcdm: Nautilus.py:493-494; NautilusV2.py:553-554 *)
  Definition nt_off (v : nt_variant) : nat := match v with NV1 => 0 | NV2 _ _ => 1 end.
  (** self._utopian. *)
  (* /repo/desdeo_mcdm: Nautilus.py:378; NautilusV2.py:438 *)
  Definition nt_utopian (ideal : vec) (eps : N) : vec := map (fun x => nsub x eps) ideal.

  (** [self._buf[i] = v] *)
  (* /repo/desdeo_mcdm: Nautilus.py:480-742 (assignment to a slot of a buffer) *)
  Definition nput {A} (get : nt_state -> list A) (put : nt_state -> list A -> nt_state) (i : nat) (v : A) : SE nt_state unit :=
    s <-- sget ;; l <-- lift (set_ (get s) i v) ;; smod (fun s => put s l).
  (** [self._buf[i]] used as a number or an array: None raises TypeError. *)
  (* /repo/desdeo_mcdm: Nautilus.py:480-754 (read of a slot of a buffer) *)
  Definition slot {A} (l : list (option A)) (i : nat) : res A :=
    do o <- at_ l i; match o with Some a => Ok a | None => Raise TypeErr end.

  (** calculate_iteration_point. *)
  (* /repo/desdeo_mcdm: Nautilus.py:854-868; NautilusV2.py:966-980 *)
  Definition nt_point (l : Z) (z f : vec) : res vec :=
    if (l =? 0)%Z then Raise ZeroDivErr
    else bcast2 nadd (vscale (ndiv (nofZ (l - 1)) (nofZ l)) z) (vscale (ndiv (nofZ 1) (nofZ l)) f).
  (** calculate_bounds. *)
  (* /repo/desdeo_mcdm: Nautilus.py:870-921; NautilusV2.py:982-1037 *)
  Definition nt_bounds (p : nt_problem) (k : nat) (z : vec) : res vec :=
    rseq (map (fun i => do x <- np_ecm p i (drop_at i z) (np_x0 p); at_ (np_eval p x) i) (seq 0 k)).
  (** calculate_distance (an array with one element). *)
  (* /repo/desdeo_mcdm: Nautilus.py:923-940; NautilusV2.py:1039-1058 *)
  Definition nt_dist (z start f : vec) : res N :=
    do a <- bcast2 nsub z start;
    do b <- bcast2 nsub f start;
    Ok (nmul (ndiv (vnorm a) (vnorm b)) (nofZ 100)).

  Section Run.
    Context (p : nt_problem) (v : nt_variant) (eps : N) (ideal nadir : vec).

    (** New preferences: V1 484-510, 601-623, 701-723; V2 the same. *)
    (* /repo/desdeo_mcdm: Nautilus.py:484-510, 601-623, 701-722; NautilusV2.py:544-570, 660-681, 759-780 *)
    Definition nt_solve (d : nt_dict) : SE nt_state unit :=
      m <-- lift (key (nd_method d)) ;;
      i <-- lift (key (nd_info d)) ;;
      w <-- lift (nt_weights v m i nadir (nt_utopian ideal eps)) ;;
      s <-- sget ;;
      q <-- lift (slot (ns_zs s) (ns_step s - 1)) ;;
      x <-- lift (np_min p w nadir (nt_utopian ideal eps) q (np_x0 p)) ;;
      nput ns_xs u_xs (ns_step s) (Some x) ;;;
      nput ns_fs u_fs (ns_step s) (Some (np_eval p x)).

    (** The next iteration point: V1 513-515, 626-628, 724-726. *)
    (* /repo/desdeo_mcdm: Nautilus.py:512-515, 625-628, 723-726; NautilusV2.py:572-575, 684-687, 782-785 *)
    Definition nt_move : SE nt_state unit :=
      s <-- sget ;;
      z <-- lift (slot (ns_zs s) (ns_step s - 1)) ;;
      f <-- lift (slot (ns_fs s) (ns_step s)) ;;
      z' <-- lift (nt_point (ns_left s) z f) ;;
      nput ns_zs u_zs (ns_step s) (Some z').

    (** Bounds, distance and the request: V1 516-542, 630-656, 668-692, 728-754. *)
    (* /repo/desdeo_mcdm: Nautilus.py:516-542, 630-656, 668-692, 728-754; NautilusV2.py:576-602, 689-715, 727-751, 787-813 *)
    Definition nt_report : SE nt_state nt_request :=
      s <-- sget ;;
      z <-- lift (slot (ns_zs s) (ns_step s)) ;;
      b <-- lift (nt_bounds p (length ideal) z) ;;
      nput ns_lb u_lb (ns_step s + nt_off v) (Some b) ;;;
      nput ns_ub u_ub (ns_step s + nt_off v) (Some z) ;;;
      f <-- lift (slot (ns_fs s) (ns_step s)) ;;
      e <-- lift (nt_dist z (nt_start v nadir) f) ;;
      nput ns_ds u_ds (ns_step s) (Some e) ;;;
      sret (NReq z b z e).

    (** handle_initial_request; the first bounds are those
        of step 0 (V1) or are overwritten (V2: slot 1, shadowed by slot 2). *)
    (* /repo/desdeo_mcdm: Nautilus.py:455-542; NautilusV2.py:515-602 *)
    Definition nt_handle_initial (d : nt_dict) : SE nt_state nt_request :=
      o <-- lift (key (nd_n d)) ;;
      n <-- lift (match as_int o with Some n => Ok n | None => Raise TypeErr end) ;;
      smod (fun s => let b {A} : list (option A) := repeat None (Z.to_nat (n + 2)) in
                     MkNT (ns_step s) n n b b b b b b) ;;;
      s <-- sget ;;
      nput ns_zs u_zs (ns_step s - 1) (Some (nt_start v nadir)) ;;;
      m <-- lift (key (nd_method d)) ;;
      i <-- lift (key (nd_info d)) ;;
      w <-- lift (nt_weights v m i nadir (nt_utopian ideal eps)) ;;
      nput ns_lb u_lb (ns_step s - 1 + nt_off v) (Some ideal) ;;;
      nput ns_ub u_ub (ns_step s - 1 + nt_off v) (Some nadir) ;;;
      nt_solve d ;;;
      nt_move ;;;
      nt_report.

    (** Lines V1 559-577, V2 619-636: the response changes the number of iterations. *)
    (* /repo/desdeo_mcdm: Nautilus.py:564-574; NautilusV2.py:624-634 *)
    Definition ext {A} (e : nat) (l : list (option A)) : list (option A) := l ++ repeat None e.
    (* /repo/desdeo_mcdm: Nautilus.py:563-574; NautilusV2.py:623-634 *)
    Definition nt_extend (m : Z) (s : nt_state) : nt_state :=
      if (ns_n s <? m)%Z then
        let e := Z.to_nat (m - ns_n s) in
        MkNT (ns_step s) (ns_n s) (ns_left s) (ext e (ns_zs s)) (ext e (ns_xs s)) (ext e (ns_fs s))
             (ext e (ns_ds s)) (ext e (ns_lb s)) (ext e (ns_ub s))
      else s.
    (* /repo/desdeo_mcdm: Nautilus.py:576-577; NautilusV2.py:636 *)
    Definition nt_set_left (m : Z) (s : nt_state) : nt_state :=
      match v with
      | NV1 => MkNT (ns_step s) m (ns_left s + m - ns_n s) (ns_zs s) (ns_xs s) (ns_fs s) (ns_ds s) (ns_lb s) (ns_ub s)
      | NV2 _ _ => MkNT (ns_step s) (ns_n s) m (ns_zs s) (ns_xs s) (ns_fs s) (ns_ds s) (ns_lb s) (ns_ub s)
      end.
    (* /repo/desdeo_mcdm: Nautilus.py:559-577; NautilusV2.py:619-636 *)
    Definition nt_change (d : nt_dict) : SE nt_state unit :=
      match nd_n d with
      | None => sret tt
      | Some o =>
          m <-- lift (match as_int o with Some m => Ok m | None => Raise TypeErr end) ;;
          smod (fun s => nt_set_left m (nt_extend m s))
      end.

    (* /repo/desdeo_mcdm: Nautilus.py:581; NautilusV2.py:640 *)
    Definition u_left s l := MkNT (ns_step s) (ns_n s) l (ns_zs s) (ns_xs s) (ns_fs s) (ns_ds s) (ns_lb s) (ns_ub s).
    (* /repo/desdeo_mcdm: Nautilus.py:587-588; NautilusV2.py:646-647 *)
    Definition u_next s := MkNT (S (ns_step s)) (ns_n s) (ns_left s - 1) (ns_zs s) (ns_xs s) (ns_fs s) (ns_ds s) (ns_lb s) (ns_ub s).

    (** The forward step. *)
    (* /repo/desdeo_mcdm: Nautilus.py:584-656; NautilusV2.py:643-715 *)
    Definition nt_forward (d : nt_dict) : SE nt_state nt_request :=
      smod u_next ;;;
      u <-- lift (key (nd_prev d)) ;;
      (if truthy u then
         s <-- sget ;;
         x <-- lift (at_ (ns_xs s) (ns_step s - 1)) ;; nput ns_xs u_xs (ns_step s) x ;;;
         f <-- lift (at_ (ns_fs s) (ns_step s - 1)) ;; nput ns_fs u_fs (ns_step s) f
       else nt_solve d) ;;;
      nt_move ;;;
      nt_report.

    (** The short step. *)
    (* /repo/desdeo_mcdm: Nautilus.py:659-692; NautilusV2.py:718-751 *)
    Definition nt_half : SE nt_state nt_request :=
      s <-- sget ;;
      z <-- lift (slot (ns_zs s) (ns_step s)) ;;
      z0 <-- lift (slot (ns_zs s) (ns_step s - 1)) ;;
      z' <-- lift (bcast2 nadd (vscale (ndiv (nofZ 1) (nofZ 2)) z) (vscale (ndiv (nofZ 1) (nofZ 2)) z0)) ;;
      nput ns_zs u_zs (ns_step s) (Some z') ;;;
      nt_report.

    (** handle_request; [None]: the end of the function
        body is reached and Python returns None. *)
    (* /repo/desdeo_mcdm: Nautilus.py:544-754; NautilusV2.py:604-813 *)
    Definition nt_handle (d : nt_dict) : SE nt_state (option nt_request) :=
      nt_change d ;;;
      s <-- sget ;;
      if (ns_left s <=? 1)%Z then
        smod (fun s => u_left s 0) ;;;
        x <-- lift (at_ (ns_xs s) (ns_step s)) ;;
        f <-- lift (at_ (ns_fs s) (ns_step s)) ;;
        sret (Some (NStop x f))
      else
        b <-- lift (key (nd_back d)) ;;
        if negb (truthy b) then
          q <-- nt_forward d ;; sret (Some q)
        else
          h <-- lift (key (nd_short d)) ;;
          if truthy h then
            q <-- nt_half ;; sret (Some q)
          else
            u <-- lift (key (nd_prev d)) ;;
            if truthy u then sret None
            else
              nt_solve d ;;; nt_move ;;; q <-- nt_report ;; sret (Some q).

    (** The response attribute of a request: None until it is set. *)
    (* /repo/desdeo_mcdm: Nautilus.py:557; NautilusV2.py:617 (request.response) *)
    Definition nt_resp (r : option nt_dict) : res nt_dict := match r with Some d => Ok d | None => Raise TypeErr end.

    (** iterate. *)
    (* /repo/desdeo_mcdm: Nautilus.py:432-453; NautilusV2.py:492-513 *)
    Definition nt_iterate (q : nt_request) (resp : option nt_dict) : SE nt_state (option nt_request) :=
      match q with
      | NInit => d <-- lift (nt_resp resp) ;; r <-- nt_handle_initial d ;; sret (Some r)
      | NReq _ _ _ _ => d <-- lift (nt_resp resp) ;; nt_handle d
      | NStop _ _ => sret (Some q)
      end.

    (** Any history: every issued request may be iterated (again), unanswered or
        with any response its setter accepts; [ok] restricts what may be done. *)
    (* /repo/desdeo_mcdm: Nautilus.py:280-754; NautilusV2.py:336-813 (all histories of one object) *)
    Inductive nt_reach (ok : nt_state -> list nt_request -> nt_request -> option nt_dict -> Prop)
      : nt_state -> list nt_request -> Prop :=
    | nt_reach_init : nt_reach ok nt_init [NInit]
    | nt_reach_step s qs q resp s' out :
        nt_reach ok s qs -> In q qs ->
        (forall d, resp = Some d -> nt_validate v nadir q d = Ok tt) ->
        ok s qs q resp ->
        nt_iterate q resp s = (s', out) ->
        nt_reach ok s' (match out with Ok (Some q') => q' :: qs | _ => qs end).
  End Run.
End Nautilus.
Arguments nt_problem : clear implicits.
Arguments nt_variant : clear implicits.
Arguments nt_request : clear implicits.
Arguments nt_dict : clear implicits.
Arguments nt_info : clear implicits.
Arguments nt_state : clear implicits.
