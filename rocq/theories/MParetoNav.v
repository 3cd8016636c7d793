(** * Model of Pareto Navigator: desdeo_mcdm/interactive/ParetoNavigator.py

    Simplifications: messages are not modelled; [_direction] is written and never
    read by a later call, so it is not part of the state.  A preferred
    solution is an integer or something numpy does not take as an index; indices
    that are None, booleans, slices or sequences (which select something that is
    not one row) are outside the model.  An objective vector has at least two
    components ([squeeze] then gives a 1-D array).  scipy's ConvexHull
    and linprog and the scalar optimizer are oracles. *)
From Coq Require Import ZArith List Bool Lia.
From Verif Require Import Num Py Np MRpm.
Import ListNotations.

Section ParetoNav.
  Context {N : NumOps}.
  Notation vec := (list N).
  Notation mat := (list (list N)).

  (** MOProblem: the objectives, and the result of minimizing SimpleASF(ones) with
      a reference point ([None]: success is False; the flag tells whether the
      scalar method given by the user is used).  DiscreteDataProblem: its arrays. *)
  (* /repo/desdeo_mcdm: ParetoNavigator.py:343-371, 756-790 *)
  Inductive pn_problem : Type :=
  | PMO (evaluate : vec -> vec) (minimize : bool -> vec -> res (option vec))
  | PDisc (objs decs : mat).
  (** ConvexHull(points).equations, and linprog(c, A_ub, b_ub, bounds)["x"]
      ([None]: success is False). *)
  (* /repo/desdeo_mcdm: ParetoNavigator.py:628-631, 724-737 (scipy, oracles) *)
  Record pn_env := MkPE {
    pe_prob : pn_problem;
    pe_hull : mat -> res mat;
    pe_lp : vec -> mat -> vec -> list (option N * option N) -> res (option vec) }.

  (** ** Responses *)
  (* /repo/desdeo_mcdm: ParetoNavigator.py:158, 376 *)
  Inductive pn_class : Type := CLess | CGreater | CEqual | CBad.   (* "<", ">", "=", anything else *)
  (* /repo/desdeo_mcdm: ParetoNavigator.py:100-117 (response["preferred_solution"]) *)
  Inductive pn_index : Type := PIdx (z : Z) | PBadIdx.
  (* /repo/desdeo_mcdm: ParetoNavigator.py:100-130, 215-245, 470-526, 542-550 (the keys that are read) *)
  Record pn_dict := MkPD {
    pd_ref : option (rp_arr N); pd_pref : option pn_index; pd_speed : option (pyval N);
    pd_show : option (pyval N); pd_back : option (pyval N); pd_class : option (list pn_class);
    pd_sat : option (pyval N) }.
  (** The empty dictionary, which replaces a missing response. *)
  (* /repo/desdeo_mcdm: ParetoNavigator.py:470-472 *)
  Definition pn_empty : pn_dict := MkPD None None None None None None None.

  (** ** Requests: the current solution is a row, or (see [pn_asf_start]) a number. *)
  (* /repo/desdeo_mcdm: ParetoNavigator.py:440-448 (self._current_solution) *)
  Inductive pn_point : Type := CVec (v : vec) | CScalar (x : N).
  (* /repo/desdeo_mcdm: ParetoNavigator.py:25-67, 133-182, 248-278, 291-317 *)
  Inductive pn_request : Type :=
  | PInit (ideal nadir : vec) (pos : mat)
  | PReq (cur : pn_point) (ideal nadir : vec)
  | PSol (approx : pn_point) (x f : vec)
  | PStop (approx : pn_point) (x f : vec).

  (** validate_reference_point of ReferencePointMethod.py raises RPMException. *)
  (* /repo/desdeo_mcdm: ReferencePointMethod.py:25-43, as called by ParetoNavigator.py *)
  Definition pn_validate_ref (a : rp_arr N) (ideal nadir : vec) : res unit :=
    match rp_validate_ref a ideal nadir with Raise MethodExn => Raise OtherMethodExn | r => r end.
  (** Lines 119-128 and 219-227: [int(speed) not in [1, 2, 3, 4, 5]]; every
      exception becomes a ParetoNavigatorException. *)
  (* /repo/desdeo_mcdm: ParetoNavigator.py:119-128, 219-227 *)
  Definition pn_check_speed (v : pyval N) : res unit :=
    match py_int v with
    | Some z => if ((1 <=? z) && (z <=? 5))%Z then Ok tt else Raise MethodExn
    | None => Raise MethodExn
    end.
  (* /repo/desdeo_mcdm: ParetoNavigator.py:215-245, 474, 495, 542 (truth value of a key that may be absent) *)
  Definition is_true (o : option (pyval N)) : bool := match o with Some v => truthy v | None => false end.
  (* /repo/desdeo_mcdm: ParetoNavigator.py:239-243 *)
  Definition class_ok (c : pn_class) : bool := match c with CBad => false | _ => true end.

  (** The response setters; a stop request takes
      any response. *)
  (* /repo/desdeo_mcdm: ParetoNavigator.py:88-130, 204-245, 281-288 *)
  Definition pn_validate (q : pn_request) (d : pn_dict) : res unit :=
    match q with
    | PInit ideal nadir _ =>
        do _ <- match pd_ref d, pd_pref d with
                | Some _, Some _ => Raise MethodExn
                | Some a, None => pn_validate_ref a ideal nadir
                | None, Some _ => Ok tt
                | None, None => Raise MethodExn
                end;
        match pd_speed d with None => Raise MethodExn | Some v => pn_check_speed v end
    | PReq _ ideal nadir =>
        if is_true (pd_show d) then Ok tt
        else
          do _ <- match pd_speed d with None => Ok tt | Some v => pn_check_speed v end;
          match pd_ref d, pd_class d with
          | Some _, Some _ => Raise MethodExn
          | Some a, None => pn_validate_ref a ideal nadir
          | None, Some l => if forallb class_ok l then Ok tt else Raise MethodExn
          | None, None => Ok tt
          end
    | PSol _ _ _ | PStop _ _ _ => Ok tt
    end.

  (** ** The method object *)
  (* /repo/desdeo_mcdm: ParetoNavigator.py:349-381 *)
  Record pn_state := MkPS {
    ps_ideal : vec; ps_nadir : vec; ps_w : vec; ps_A : mat; ps_b : vec; ps_pos : mat;
    ps_speed : option N; ps_ref : option vec; ps_cur : option pn_point; ps_po : option (vec * vec) }.

  (** np.max / np.min of a 2-D array with axis = 0. *)
  (* /repo/desdeo_mcdm: ParetoNavigator.py:581-583, 561 (np.max, axis=0) *)
  Definition np_max0 (m : mat) : res vec := match m with [] => Raise ValueErr | r :: m' => Ok (fold_left (zipw nmaximum) m' r) end.
  (* /repo/desdeo_mcdm: ParetoNavigator.py:581-583, 562 (np.min, axis=0) *)
  Definition np_min0 (m : mat) : res vec := match m with [] => Raise ValueErr | r :: m' => Ok (fold_left (zipw nminimum) m' r) end.
  (** calculate_extremes: (nadir, ideal). *)
  (* /repo/desdeo_mcdm: ParetoNavigator.py:572-583 *)
  Definition pn_extremes (points : mat) : res (vec * vec) :=
    do nadir <- np_max0 points; do ideal <- np_min0 points; Ok (nadir, ideal).
  (** calculate_speed. *)
  (* /repo/desdeo_mcdm: ParetoNavigator.py:585-600 *)
  Definition pn_speed_of (v : pyval N) : res N :=
    do g <- match v with
            | VInt z => Ok (nofZ z) | VBool b => Ok (nofZ (bool2Z b)) | VFloat x _ => Ok x
            | VStr _ | VNone | VOther => Raise TypeErr
            end;
    Ok (ndiv (ndiv g (nofZ 5)) (nofZ 10)).
  (** calculate_weights. *)
  (* /repo/desdeo_mcdm: ParetoNavigator.py:602-613 *)
  Definition pn_weights (ideal nadir : vec) : res vec :=
    do d <- bcast2 nsub nadir ideal; Ok (map (ndiv (nofZ 1)) d).
  (** polyhedral_set_eq: A and b of A z <= b; [-x] is [-1 * x]. *)
  (* /repo/desdeo_mcdm: ParetoNavigator.py:628-631 *)
  Definition pn_split (eqs : mat) : mat * vec :=
    (map (fun r => removelast r) eqs, map (fun r => nmul (nofZ (-1)) (last r (nofZ 0))) eqs).
  (* /repo/desdeo_mcdm: ParetoNavigator.py:615-631 *)
  Definition pn_polyhedral (e : pn_env) (points : mat) : res (mat * vec) :=
    do eqs <- pe_hull e points; Ok (pn_split eqs).
  (** construct_lppp_A: on top [-1/w_i | e_i], below [0 | A]. *)
  (* /repo/desdeo_mcdm: ParetoNavigator.py:633-656 *)
  Definition pn_lppp (w : vec) (A : mat) : res mat :=
    let k := length w in
    if forallb (fun r => Nat.eqb (length r) k) A then
      Ok (zipw (fun i wi => ndiv (nofZ (-1)) wi :: unit_row k i) (seq 0 k) w ++ map (cons (nofZ 0)) A)
    else Raise ValueErr.

  (** np.isinf *)
  (* /repo/desdeo_mcdm: ParetoNavigator.py:351 (np.isinf) *)
  Definition nisinf (x : N) : bool := negb (nisnan x) && nisnan (nsub x x).
  (* /repo/desdeo_mcdm: ParetoNavigator.py:351 *)
  Definition any_inf (v : vec) : bool := existsb nisinf v.

  (** __init__; [given]: the argument pareto_optimal_solutions. *)
  (* /repo/desdeo_mcdm: ParetoNavigator.py:337-381 *)
  Definition pn_ctor (e : pn_env) (ideal0 nadir0 : vec) (given : option mat) : res pn_state :=
    do pos <- match pe_prob e, given with
              | PMO _ _, None => Raise MethodExn
              | PMO _ _, Some pos => Ok pos
              | PDisc objs _, _ => Ok objs
              end;
    do en <- (if any_inf nadir0 || any_inf ideal0 then pn_extremes pos else Ok (nadir0, ideal0));
    do Ab <- pn_polyhedral e pos;
    do w <- pn_weights (snd en) (fst en);
    do A <- pn_lppp w (fst Ab);
    Ok (MkPS (snd en) (fst en) w A (snd Ab) pos None None None None).

  (* /repo/desdeo_mcdm: ParetoNavigator.py:449, 493, 496, 498 (assignment to self._current_speed) *)
  Definition p_speed s v := MkPS (ps_ideal s) (ps_nadir s) (ps_w s) (ps_A s) (ps_b s) (ps_pos s) v (ps_ref s) (ps_cur s) (ps_po s).
  (* /repo/desdeo_mcdm: ParetoNavigator.py:441, 501, 509 (assignment to self._reference_point) *)
  Definition p_ref s v := MkPS (ps_ideal s) (ps_nadir s) (ps_w s) (ps_A s) (ps_b s) (ps_pos s) (ps_speed s) v (ps_cur s) (ps_po s).
  (* /repo/desdeo_mcdm: ParetoNavigator.py:448, 516 (assignment to self._current_solution) *)
  Definition p_cur s v := MkPS (ps_ideal s) (ps_nadir s) (ps_w s) (ps_A s) (ps_b s) (ps_pos s) (ps_speed s) (ps_ref s) v (ps_po s).
  (* /repo/desdeo_mcdm: ParetoNavigator.py:475-485 (assignment to self._po_solution, self._po_objectives) *)
  Definition p_po s v := MkPS (ps_ideal s) (ps_nadir s) (ps_w s) (ps_A s) (ps_b s) (ps_pos s) (ps_speed s) (ps_ref s) (ps_cur s) v.
  (* /repo/desdeo_mcdm: ParetoNavigator.py:554 (assignment to self._pareto_optimal_solutions) *)
  Definition p_pos s v := MkPS (ps_ideal s) (ps_nadir s) (ps_w s) (ps_A s) (ps_b s) v (ps_speed s) (ps_ref s) (ps_cur s) (ps_po s).
  (* /repo/desdeo_mcdm: ParetoNavigator.py:557 (assignment to self.b) *)
  Definition p_b s v := MkPS (ps_ideal s) (ps_nadir s) (ps_w s) (ps_A s) v (ps_pos s) (ps_speed s) (ps_ref s) (ps_cur s) (ps_po s).
  (* /repo/desdeo_mcdm: ParetoNavigator.py:562 (assignment to self._ideal) *)
  Definition p_ideal s v := MkPS v (ps_nadir s) (ps_w s) (ps_A s) (ps_b s) (ps_pos s) (ps_speed s) (ps_ref s) (ps_cur s) (ps_po s).
  (* /repo/desdeo_mcdm: ParetoNavigator.py:561 (assignment to self._nadir) *)
  Definition p_nadir s v := MkPS (ps_ideal s) v (ps_w s) (ps_A s) (ps_b s) (ps_pos s) (ps_speed s) (ps_ref s) (ps_cur s) (ps_po s).
  (* /repo/desdeo_mcdm: ParetoNavigator.py:565 (assignment to self._weights) *)
  Definition p_w s v := MkPS (ps_ideal s) (ps_nadir s) v (ps_A s) (ps_b s) (ps_pos s) (ps_speed s) (ps_ref s) (ps_cur s) (ps_po s).
  (* /repo/desdeo_mcdm: ParetoNavigator.py:568 (assignment to self.lppp_A) *)
  Definition p_A s v := MkPS (ps_ideal s) (ps_nadir s) (ps_w s) v (ps_b s) (ps_pos s) (ps_speed s) (ps_ref s) (ps_cur s) (ps_po s).

  (** An attribute that is None or not there. *)
  (* /repo/desdeo_mcdm: ParetoNavigator.py:470-570 (read of an attribute that is None or absent) *)
  Definition attr {A} (e : exn) (o : option A) : res A := match o with Some a => Ok a | None => Raise e end.

  (** SimpleASF(ones) of desdeo_tools on one row: max_i (f_i - q_i), components
      with an undefined reference value being skipped; nanargmin over the rows. *)
  (* /repo/desdeo_mcdm: desdeo_tools SimpleASF, as used at ParetoNavigator.py:756-790 *)
  Definition ninf_neg : N := ndiv (nofZ (-1)) (nofZ 0).
  (* /repo/desdeo_mcdm: desdeo_tools SimpleASF, as used at ParetoNavigator.py:756-790 *)
  Definition simple_term (f q : N) : N := if nisnan q then ninf_neg else nmul (nofZ 1) (nsub f q).
  (* /repo/desdeo_mcdm: desdeo_tools SimpleASF, as used at ParetoNavigator.py:756-790 *)
  Definition simple_asf (f : vec) (q : pn_point) : res N :=
    do t <- match q with CVec q => bcast2 simple_term f q | CScalar x => Ok (map (fun fi => simple_term fi x) f) end;
    npmax t.
  (* /repo/desdeo_mcdm: ParetoNavigator.py:785-790 *)
  Definition pn_disc (objs : mat) (q : pn_point) : res nat :=
    do vals <- rseq (map (fun f => simple_asf f q) objs); npnanargmin vals.
  (** solve_asf for an MOProblem. *)
  (* /repo/desdeo_mcdm: ParetoNavigator.py:756-783 *)
  Definition pn_minimize (minimize : bool -> vec -> res (option vec)) (user : bool) (q : pn_point) : res vec :=
    match q with
    | CVec q => do o <- minimize user q; match o with Some x => Ok x | None => Raise MethodExn end
    | CScalar _ => Raise TypeErr
    end.

  (** The starting point for a reference point: solve_asf returns the
      decision vector of an MOProblem, and the row number for a data problem. *)
  (* /repo/desdeo_mcdm: ParetoNavigator.py:440-448 *)
  Definition pn_asf_start (p : pn_problem) (q : vec) : res pn_point :=
    match p with
    | PMO _ minimize => do x <- pn_minimize minimize true (CVec q); Ok (CVec x)
    | PDisc objs _ => do i <- pn_disc objs (CVec q); Ok (CScalar (nofZ (Z.of_nat i)))
    end.

  Section Run.
    Context (e : pn_env).

    (** ParetoNavigatorRequest.init_with_method. *)
    (* /repo/desdeo_mcdm: ParetoNavigator.py:185-201 *)
    Definition pn_issue : SE pn_state pn_request :=
      s <-- sget ;; c <-- lift (attr TypeErr (ps_cur s)) ;; sret (PReq c (ps_ideal s) (ps_nadir s)).

    (** handle_initial_request. *)
    (* /repo/desdeo_mcdm: ParetoNavigator.py:428-451 *)
    Definition pn_handle_initial (d : pn_dict) : SE pn_state pn_request :=
      s <-- sget ;;
      c <-- match pd_ref d with
            | Some (RArr q) => smod (fun s => p_ref s (Some q)) ;;; lift (pn_asf_start (pe_prob e) q)
            | Some _ => sraise TypeErr
            | None => i <-- lift (key (pd_pref d)) ;;
                      match i with
                      | PIdx z => r <-- lift (py_nth (ps_pos s) z) ;; sret (CVec r)
                      | PBadIdx => sraise IndexErr
                      end
            end ;;
      smod (fun s => p_cur s (Some c)) ;;;
      v <-- lift (key (pd_speed d)) ;;
      a <-- lift (pn_speed_of v) ;;
      smod (fun s => p_speed s (Some a)) ;;;
      pn_issue.

    (** Lines 474-491: an actual solution. *)
    (* /repo/desdeo_mcdm: ParetoNavigator.py:474-491 *)
    Definition pn_show : SE pn_state pn_request :=
      s <-- sget ;;
      c <-- lift (attr AttrErr (ps_cur s)) ;;
      xf <-- lift (match pe_prob e with
                   | PMO evaluate minimize => do x <- pn_minimize minimize false c; Ok (x, evaluate x)
                   | PDisc objs decs => do i <- pn_disc objs c; do f <- at_ objs i; do x <- at_ decs i; Ok (x, f)
                   end) ;;
      smod (fun s => p_po s (Some xf)) ;;;
      sret (PSol c (fst xf) (snd xf)).

    (** classification_to_ref_point. *)
    (* /repo/desdeo_mcdm: ParetoNavigator.py:687-694 *)
    Definition pn_class_value (ideal nadir : vec) (c : pn_point) (i : nat) (cl : pn_class) : res N :=
      match cl with
      | CLess => at_ ideal i
      | CGreater => at_ nadir i
      | CEqual => match c with CVec v => at_ v i | CScalar _ => Raise IndexErr end
      | CBad => Raise TypeErr
      end.
    (* /repo/desdeo_mcdm: ParetoNavigator.py:671-696 *)
    Definition pn_class_ref (ideal nadir : vec) (c : pn_point) (l : list pn_class) : res vec :=
      rseq (zipw (pn_class_value ideal nadir c) (seq 0 (length l)) l).

    (** calculate_direction. *)
    (* /repo/desdeo_mcdm: ParetoNavigator.py:658-669 *)
    Definition pn_direction (c : pn_point) (q : vec) : res vec :=
      match c with CVec v => bcast2 nsub q v | CScalar x => Ok (map (fun y => nsub y x) q) end.
    (** solve_linear_parametric_problem. *)
    (* /repo/desdeo_mcdm: ParetoNavigator.py:698-737 *)
    Definition pn_solve (c : pn_point) (ideal nadir dir : vec) (a : N) (A : mat) (b : vec) : res vec :=
      match c with
      | CScalar _ => Raise TypeErr
      | CVec v =>
          let k := length v in
          do moved <- bcast2 nadd v (vscale a dir);
          if negb (Nat.eqb (length moved) k) then Raise ValueErr
          else if negb (Nat.eqb (length ideal) (length nadir)) then Raise ValueErr
          else
            do o <- pe_lp e (nofZ 1 :: repeat (nofZ 0) k) A (moved ++ b)
                      ((None, None) :: map (fun xy => (Some (fst xy), Some (snd xy))) (combine ideal nadir));
            match o with Some x => Ok (tl x) | None => Raise MethodExn end
      end.

    (** handle_request. *)
    (* /repo/desdeo_mcdm: ParetoNavigator.py:453-526 *)
    Definition pn_handle (d : pn_dict) : SE pn_state pn_request :=
      if is_true (pd_show d) then pn_show
      else
        match pd_speed d with
        | Some v => a <-- lift (pn_speed_of v) ;; smod (fun s => p_speed s (Some a))
        | None => sret tt
        end ;;;
        s <-- sget ;;
        a0 <-- lift (attr TypeErr (ps_speed s)) ;;
        let a := if is_true (pd_back d) then nmul a0 (nofZ (-1)) else nabs a0 in
        smod (fun s => p_speed s (Some a)) ;;;
        c <-- lift (attr TypeErr (ps_cur s)) ;;
        match pd_ref d, pd_class d with
        | Some (RArr q), _ => smod (fun s => p_ref s (Some q))
        | Some _, _ => sraise TypeErr
        | None, Some l => q <-- lift (pn_class_ref (ps_ideal s) (ps_nadir s) c l) ;; smod (fun s => p_ref s (Some q))
        | None, None => sret tt
        end ;;;
        s <-- sget ;;
        q <-- lift (attr TypeErr (ps_ref s)) ;;
        dir <-- lift (pn_direction c q) ;;
        z <-- lift (pn_solve c (ps_ideal s) (ps_nadir s) dir a (ps_A s) (ps_b s)) ;;
        smod (fun s => p_cur s (Some (CVec z))) ;;;
        pn_issue.

    (** handle_solution_request. *)
    (* /repo/desdeo_mcdm: ParetoNavigator.py:528-570 *)
    Definition pn_handle_solution (resp : option pn_dict) : SE pn_state pn_request :=
      s <-- sget ;;
      if (match resp with Some d => is_true (pd_sat d) | None => false end) then
        xf <-- lift (attr AttrErr (ps_po s)) ;;
        c <-- lift (attr TypeErr (ps_cur s)) ;;
        sret (PStop c (fst xf) (snd xf))
      else
        xf <-- lift (attr AttrErr (ps_po s)) ;;
        pos <-- lift (if Nat.eqb (length (snd xf)) (length (hd [] (ps_pos s))) then Ok (ps_pos s ++ [snd xf]) else Raise ValueErr) ;;
        smod (fun s => p_pos s pos) ;;;
        Ab <-- lift (pn_polyhedral e pos) ;;
        smod (fun s => p_b s (snd Ab)) ;;;
        en <-- lift (pn_extremes pos) ;;
        nadir <-- lift (np_max0 [fst en; ps_nadir s]) ;;
        smod (fun s => p_nadir s nadir) ;;;
        ideal <-- lift (np_min0 [snd en; ps_ideal s]) ;;
        smod (fun s => p_ideal s ideal) ;;;
        w <-- lift (pn_weights ideal nadir) ;;
        smod (fun s => p_w s w) ;;;
        A <-- lift (pn_lppp w (fst Ab)) ;;
        smod (fun s => p_A s A) ;;;
        pn_issue.

    (** iterate.  An unanswered initial request raises TypeError
        ([in] on None), an unanswered request counts as an empty response. *)
    (* /repo/desdeo_mcdm: ParetoNavigator.py:392-426 *)
    Definition pn_iterate (q : pn_request) (resp : option pn_dict) : SE pn_state pn_request :=
      match q with
      | PInit _ _ _ => d <-- lift (attr TypeErr resp) ;; pn_handle_initial d
      | PReq _ _ _ => pn_handle (match resp with Some d => d | None => pn_empty end)
      | PSol _ _ _ => pn_handle_solution resp
      | PStop _ _ _ => sret q
      end.

    (** start. *)
    (* /repo/desdeo_mcdm: ParetoNavigator.py:383-390 *)
    Definition pn_start (s : pn_state) : pn_request := PInit (ps_ideal s) (ps_nadir s) (ps_pos s).

    (** One thing that may happen: [start] is called, or a request that has been
        issued is iterated, unanswered or with a response its setter accepts. *)
    (* /repo/desdeo_mcdm: ParetoNavigator.py:320-570 (one call) *)
    Inductive pn_step : pn_state * list pn_request -> pn_state * list pn_request -> Prop :=
    | pn_step_start s qs : pn_step (s, qs) (s, pn_start s :: qs)
    | pn_step_iterate s qs q resp s' out :
        In q qs -> (forall d, resp = Some d -> pn_validate q d = Ok tt) ->
        pn_iterate q resp s = (s', out) ->
        pn_step (s, qs) (s', match out with Ok q' => q' :: qs | Raise _ => qs end).
    (** Any history. *)
    (* /repo/desdeo_mcdm: ParetoNavigator.py:320-570 (all histories of one object) *)
    Inductive pn_hist : pn_state * list pn_request -> pn_state * list pn_request -> Prop :=
    | pn_hist_refl h : pn_hist h h
    | pn_hist_step h h1 h2 : pn_hist h h1 -> pn_step h1 h2 -> pn_hist h h2.
    (* /repo/desdeo_mcdm: ParetoNavigator.py:320-570 (all histories of one object) *)
    Definition pn_reach (ideal0 nadir0 : vec) (given : option mat) (s : pn_state) (qs : list pn_request) : Prop :=
      exists s0, pn_ctor e ideal0 nadir0 given = Ok s0 /\ pn_hist (s0, []) (s, qs).
  End Run.
End ParetoNav.
Arguments pn_problem : clear implicits.
Arguments pn_env : clear implicits.
Arguments pn_request : clear implicits.
Arguments pn_dict : clear implicits.
Arguments pn_point : clear implicits.
Arguments pn_state : clear implicits.
