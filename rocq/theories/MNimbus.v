(** * Model of synchronous NIMBUS: desdeo_mcdm/interactive/NIMBUS.py

    Simplifications: plot requests are added in MNimbusPlot.v and messages are not modelled; [.squeeze()] of an objective vector is the
    vector (true for two or more objectives); response lists of numbers are lists
    of numbers (levels) or of integers (indices). *)
From Coq Require Import ZArith List Bool Lia.
From Verif Require Import Num Py Np.
Import ListNotations.

(** The strings of [_valid_classifications]; [CBad] is any other one. *)
(* /repo/desdeo_mcdm: NIMBUS.py:49 *)
Inductive cls : Type := CImprove | CImproveUntil | CAccept | CImpairUntil | CFree | CBad.
(* /repo/desdeo_mcdm: NIMBUS.py:87, 96-98, 507-515 (comparison of strings) *)
Definition cls_eqb (a b : cls) : bool :=
  match a, b with
  | CImprove, CImprove | CImproveUntil, CImproveUntil | CAccept, CAccept
  | CImpairUntil, CImpairUntil | CFree, CFree | CBad, CBad => true
  | _, _ => false
  end.

(** The phases of the state machine, [self._state]. *)
(* /repo/desdeo_mcdm: NIMBUS.py:444, 1006-1059 *)
Inductive nb_phase : Type := PClassify | PArchive | PIntermediate | PPreferred | PEnd.

Section Nimbus.
  Context {N : NumOps}.
  Notation vec := (list N).
  Notation mat := (list (list N)).

  (** ** The problem and the solvers (desdeo_problem, desdeo_tools: parameters) *)

  (** The achievement scalarizing functions the code constructs, with the
      arguments it passes. *)
  (* /repo/desdeo_mcdm: NIMBUS.py:397, 430, 672, 783, 861, 892, 917 *)
  Inductive nb_asf : Type :=
  | AMaxOfTwo (nadir ideal : vec) (improve improve_until : list nat)
  | AStom (ideal : vec)
  | APoint (nadir ideal : vec)
  | AGuess (nadir ideal : vec) (free : list nat).

  (** MOProblem: [evaluate(x).objectives], the constraints if
      [n_of_constraints > 0], and what ScalarMinimizer.minimize returns as
      res["x"] and res["success"] for an ASF, a reference point, a constraint
      function and a starting point (it may raise).
      DiscreteDataProblem: the two arrays and [find_closest]. *)
  (* /repo/desdeo_mcdm: NIMBUS.py:389-440 (MOProblem and DiscreteDataProblem) *)
  Inductive nb_problem : Type :=
  | PMO (nobj : nat) (evaluate : vec -> vec) (constr : option (vec -> vec))
        (minimize : nb_asf -> vec -> option (vec -> res vec) -> vec -> res (vec * bool))
  | PDisc (nobj : nat) (objectives decisions : mat) (find_closest : vec -> nat).
  (* /repo/desdeo_mcdm: NIMBUS.py:671, 853 (n_of_objectives) *)
  Definition p_nobj (p : nb_problem) : nat :=
    match p with PMO n _ _ _ => n | PDisc n _ _ _ => n end.

  (** Value of an ASF at an objective vector for a reference point
      (DiscreteScalarizer evaluates it on every row). *)
  (* /repo/desdeo_mcdm: NIMBUS.py:431-434, 697-705, 843-847, 882-886, 907-911, 933-937 (DiscreteScalarizer) *)
  Definition asf_val : Type := nb_asf -> vec -> vec -> res N.

  (** DiscreteMinimizer.minimize (desdeo_tools): rows violating the constraint
      become NaN; np.nanargmin of the scalarized rows. *)
  (* /repo/desdeo_mcdm: NIMBUS.py:432-434, 703-705, 845-847, 884-886, 909-911, 935-937 (DiscreteMinimizer) *)
  Definition disc_minimize (av : asf_val) (a : nb_asf) (ref : vec) (objs : mat)
             (cons : option (mat -> res (list bool))) : res nat :=
    do rows <- match cons with
               | None => Ok objs
               | Some c => do m <- c objs;
                           Ok (zipw (fun (ok : bool) row => if ok then row else map (fun _ => nnan) row) m objs)
               end;
    do vals <- rseq (map (fun row => av a row ref) rows);
    npnanargmin vals.

  (** ** Requests and responses *)
  (* /repo/desdeo_mcdm: NIMBUS.py:24-57, 128-154, 189-218, 261-288, 328-351 *)
  Inductive nb_request : Type :=
  | QClass (ref : vec)
  | QSave (sols objs : mat)
  | QInter (sols objs : mat)
  | QPref (sols objs : mat)
  | QStop (sol obj : vec).

  (** One record for all response dictionaries; [None] is an absent key. *)
  (* /repo/desdeo_mcdm: NIMBUS.py:77-120, 168-181, 233-253, 302-320 (the keys that are read) *)
  Record nb_dict := MkBD {
    bd_cls : option (list cls); bd_levels : option vec; bd_nsol : option (pyval N);
    bd_indices : option (list Z); bd_ndes : option (pyval N);
    bd_index : option (pyval N); bd_continue : option (pyval N) }.

  (** [np.where(np.array(classifications) == c)[0]]. *)
  (* /repo/desdeo_mcdm: NIMBUS.py:96-98, 507-515 *)
  Definition where_cls (c : cls) (l : list cls) : list nat :=
    argwhere (map (cls_eqb c) l).

  (** [np.all(levels[inds] >= ideal[inds])] and [... <= nadir[inds]] negated and
      or-ed: IndexError when an index is out of range. *)
  (* /repo/desdeo_mcdm: NIMBUS.py:100-116 *)
  Definition levels_bad (levels ideal nadir : vec) (inds : list nat) : res bool :=
    do lv <- take levels inds;
    do id <- take ideal inds;
    if negb (all_ge lv id) then Ok true
    else do nd <- take nadir inds; Ok (negb (all_le lv nd)).

  (** NimbusClassificationRequest.validator. *)
  (* /repo/desdeo_mcdm: NIMBUS.py:59-120 *)
  Definition nb_validate_cls (p : nb_problem) (ideal nadir : vec) (d : nb_dict) : res unit :=
    match bd_cls d, bd_levels d, bd_nsol d with
    | Some cl, Some lv, Some ns =>
        if negb (forallb (fun c => negb (cls_eqb c CBad)) cl) then Raise MethodExn
        else if Nat.eqb (length lv) 1 then Raise TypeErr      (* len() of a 0-d array *)
        else if negb (Nat.eqb (length lv) (p_nobj p)) then Raise MethodExn
        else
          let iu := where_cls CImproveUntil cl in
          let pu := where_cls CImpairUntil cl in
          do b1 <- (if Nat.ltb 0 (length iu) then levels_bad lv ideal nadir iu else Ok false);
          if b1 : bool then Raise MethodExn else
          do b2 <- (if Nat.ltb 0 (length pu) then levels_bad lv ideal nadir pu else Ok false);
          if b2 : bool then Raise MethodExn else
          do g <- py_gt ns 4;
          if g : bool then Raise MethodExn else
          do l <- py_lt ns 1;
          if l : bool then Raise MethodExn else Ok tt
    | _, _, _ => Raise MethodExn
    end.

  (* /repo/desdeo_mcdm: NIMBUS.py:168-181, 233-253 (np.min of the indices) *)
  Definition zmin (l : list Z) : Z := match l with [] => 0 | x :: l' => fold_left Z.min l' x end.
  (* /repo/desdeo_mcdm: NIMBUS.py:168-181, 233-253 (np.max of the indices) *)
  Definition zmax (l : list Z) : Z := match l with [] => 0 | x :: l' => fold_left Z.max l' x end.

  (** NimbusSaveRequest.validator. *)
  (* /repo/desdeo_mcdm: NIMBUS.py:156-181 *)
  Definition nb_validate_save (objs : mat) (d : nb_dict) : res unit :=
    match bd_indices d with
    | None => Raise MethodExn
    | Some ix =>
        if Nat.eqb (length ix) 0 then Ok tt
        else if Nat.ltb (length objs) (length ix) || (zmin ix <? 0)%Z then Raise MethodExn
        else if (Z.of_nat (length objs) <=? zmax ix)%Z || (zmin ix <? 0)%Z then Raise MethodExn
        else Ok tt
    end.

  (** NimbusIntermediateSolutionsRequest.validator. *)
  (* /repo/desdeo_mcdm: NIMBUS.py:220-253 *)
  Definition nb_validate_inter (objs : mat) (d : nb_dict) : res unit :=
    match bd_indices d, bd_ndes d with
    | Some ix, Some nd =>
        do lt <- py_lt nd 0;
        if lt : bool then Raise MethodExn
        else if Nat.ltb 0 (length ix) && py_eq nd 0 then Raise MethodExn
        else
          do gt <- (if Nat.eqb (length ix) 0 then py_gt nd 0 else Ok false);
          if gt : bool then Raise MethodExn
          else if Nat.eqb (length ix) 0 then Ok tt
          else if (Z.of_nat (length objs) <=? zmax ix)%Z || (zmin ix <? 0)%Z then Raise MethodExn
          else Ok tt
    | _, _ => Raise MethodExn
    end.

  (** NimbusMostPreferredRequest.validator: [type(x) == int], so a
      bool is not an index. *)
  (* /repo/desdeo_mcdm: NIMBUS.py:290-320 *)
  Definition nb_validate_pref (objs : mat) (d : nb_dict) : res unit :=
    match bd_index d, bd_continue d with
    | Some i, Some c =>
        match i with
        | VInt z =>
            match c with
            | VBool _ => if ((0 <=? z) && (z <? Z.of_nat (length objs)))%Z then Ok tt else Raise MethodExn
            | _ => Raise MethodExn
            end
        | _ => Raise MethodExn
        end
    | _, _ => Raise MethodExn
    end.

  (** The validator of a request; a stop request takes no response. *)
  (* /repo/desdeo_mcdm: NIMBUS.py:122-125, 183-186, 255-258, 322-325 *)
  Definition nb_validate (p : nb_problem) (ideal nadir : vec) (q : nb_request) (d : nb_dict) : res unit :=
    match q with
    | QClass _ => nb_validate_cls p ideal nadir d
    | QSave _ objs => nb_validate_save objs d
    | QInter _ objs => nb_validate_inter objs d
    | QPref _ objs => nb_validate_pref objs d
    | QStop _ _ => Ok tt
    end.

  (** ** The method object; [_ideal], [_nadir] and [_problem] never change and are
      parameters below. *)
  (* /repo/desdeo_mcdm: NIMBUS.py:418-419, 435-436, 442-444 *)
  Record nb_state := MkBS {
    bs_sol : vec; bs_obj : vec; bs_asols : mat; bs_aobjs : mat; bs_phase : nb_phase }.

  (** The check of the starting point in __init__:
      [np.squeeze(start).shape != np.squeeze(ideal.shape)] compares the tuple
      [(len,)] with the number of objectives; the empty tuple of a one-element
      starting point gives an empty comparison, which is false, so that one is
      accepted and broadcast later. *)
  (* /repo/desdeo_mcdm: NIMBUS.py:383-387 *)
  Definition nb_start_ok (start : option vec) (ideal : vec) : bool :=
    match start with
    | None => true
    | Some v => Nat.eqb (length v) 1 || Nat.eqb (length v) (length ideal)
    end.

  (** __init__, with the problem's ideal and nadir.
      [None]: no starting point.  [x0] is half of the variables' upper bounds. *)
  (* /repo/desdeo_mcdm: NIMBUS.py:369-446 *)
  Definition nb_init (av : asf_val) (p : nb_problem) (ideal nadir : vec) (start : option vec) (x0 : vec)
    : res nb_state :=
    let ref := match start with
               | Some v => v
               | None => map (fun x => ndiv x (nofZ 2)) (vadd ideal nadir)
               end in
    if negb (nb_start_ok start ideal) then Raise MethodExn else
    match p with
    | PMO _ evaluate constr minimize =>
        do r <- minimize (APoint nadir ideal) ref (option_map (fun c => fun x => Ok (c x)) constr) x0;
        if negb (snd r) then Raise MethodExn
        else Ok (MkBS (fst r) (evaluate (fst r)) [] [] PClassify)
    | PDisc _ objs decs _ =>
        do i <- disc_minimize av (APoint nadir ideal) ref objs None;
        do x <- at_ decs i;
        do f <- at_ objs i;
        Ok (MkBS x f [] [] PClassify)
    end.

  (** request_classification. *)
  (* /repo/desdeo_mcdm: NIMBUS.py:457-461 *)
  Definition nb_request_cls (s : nb_state) : nb_request := QClass (bs_obj s).
  (** start. *)
  (* /repo/desdeo_mcdm: NIMBUS.py:448-455 *)
  Definition nb_start (s : nb_state) : nb_request := nb_request_cls s.

  (** [np.hstack((res_1, ..., res_4)) >= 0] for one row. *)
  (* /repo/desdeo_mcdm: NIMBUS.py:798-803, 834-839 *)
  Definition cons_row (cur levels : vec) (imp imp_until acc impair : list nat) (f : vec) : res vec :=
    do c1 <- take cur imp; do f1 <- take f imp;
    do c2 <- take cur imp_until; do f2 <- take f imp_until;
    do c3 <- take cur acc; do f3 <- take f acc;
    do c4 <- take levels impair; do f4 <- take f impair;
    Ok (vsub c1 f1 ++ vsub c2 f2 ++ vsub c3 f3 ++ vsub c4 f4).

  (** cons_1 of the discrete case: [np.all(res >= 0, axis=1)]. *)
  (* /repo/desdeo_mcdm: NIMBUS.py:825-841 *)
  Definition cons_disc (cur levels : vec) (imp imp_until acc impair : list nat) (objs : mat) : res (list bool) :=
    rseq (map (fun f => rmap (fun r => forallb (fun x => nleb (nofZ 0) x) r)
                             (cons_row cur levels imp imp_until acc impair f)) objs).
  (** cons_1 of the MOProblem case. *)
  (* /repo/desdeo_mcdm: NIMBUS.py:787-811 *)
  Definition cons_mo (evaluate : vec -> vec) (constr : option (vec -> vec)) (cur levels : vec)
             (imp imp_until acc impair : list nat) (x : vec) : res vec :=
    do r <- cons_row cur levels imp imp_until acc impair (evaluate x);
    Ok (match constr with Some c => c x ++ r | None => r end).

  (** [z[inds] = src[inds]] *)
  (* /repo/desdeo_mcdm: NIMBUS.py:854-858 *)
  Fixpoint put (z : vec) (inds : list nat) (src : vec) : res vec :=
    match inds with
    | [] => Ok z
    | i :: inds' => do v <- at_ src i; do z' <- set_ z i v; put z' inds' src
    end.

  (** z_bar. *)
  (* /repo/desdeo_mcdm: NIMBUS.py:853-858 *)
  Definition nb_zbar (nobj : nat) (ideal nadir cur levels : vec)
             (imp imp_until acc impair free : list nat) : res vec :=
    do z1 <- put (repeat (nofZ 0) nobj) imp ideal;
    do z2 <- put z1 imp_until levels;
    do z3 <- put z2 acc cur;
    do z4 <- put z3 impair levels;
    put z4 free nadir.

  (** One scalarized problem, in both cases.  The result is res["x"]:
      a vector (MOProblem) or a row number (discrete), turned into the pair that
      the save request shows. *)
  (* /repo/desdeo_mcdm: NIMBUS.py:813-821, 843-847, 869-886, 894-911, 919-937 *)
  Definition nb_solve (av : asf_val) (p : nb_problem) (cur_sol : vec) (a : nb_asf) (ref : vec)
             (cmo : option (vec -> res vec)) (cd : option (mat -> res (list bool))) : res (vec * vec) :=
    match p with
    | PMO _ evaluate _ minimize =>
        do r <- minimize a ref cmo cur_sol; Ok (fst r, evaluate (fst r))   (* success not looked at *)
    | PDisc _ objs decs _ =>
        do i <- disc_minimize av a ref objs cd;
        do x <- at_ decs i; do f <- at_ objs i; Ok (x, f)
    end.

  (** calculate_new_solutions. *)
  (* /repo/desdeo_mcdm: NIMBUS.py:753-956 *)
  Definition nb_new_solutions (av : asf_val) (p : nb_problem) (ideal nadir : vec) (s : nb_state)
             (n : Z) (levels : vec) (imp imp_until acc impair free : list nat) : res nb_request :=
    let cur := bs_obj s in
    let solve := nb_solve av p (bs_sol s) in
    let cmo1 := match p with
                | PMO _ ev co _ => Some (cons_mo ev co cur levels imp imp_until acc impair)
                | _ => None end in
    let cmo2 := match p with PMO _ _ co _ => option_map (fun c => fun x => Ok (c x)) co | _ => None end in
    do r1 <- solve (AMaxOfTwo nadir ideal imp imp_until) levels cmo1
                   (Some (cons_disc cur levels imp imp_until acc impair));
    do rs <- (if (1 <? n)%Z then
                do z <- nb_zbar (p_nobj p) ideal nadir cur levels imp imp_until acc impair free;
                do r2 <- solve (AStom ideal) z cmo2 None;
                do rs3 <- (if (2 <? n)%Z then
                             do r3 <- solve (APoint nadir ideal) z cmo2 None;
                             do rs4 <- (if (3 <? n)%Z then
                                          do r4 <- solve (AGuess nadir ideal free) z cmo2 None; Ok [r4]
                                        else Ok []);
                             Ok (r3 :: rs4)
                           else Ok []);
                Ok (r2 :: rs3)
              else Ok []);
    Ok (QSave (map fst (r1 :: rs)) (map snd (r1 :: rs))).

  (** handle_classification_request. *)
  (* /repo/desdeo_mcdm: NIMBUS.py:494-526 *)
  Definition nb_handle_cls (av : asf_val) (p : nb_problem) (ideal nadir : vec) (s : nb_state) (d : nb_dict)
    : res nb_request :=
    do cl <- key (bd_cls d);
    do nsv <- key (bd_nsol d);
    do n <- py_toint nsv;
    do lv <- key (bd_levels d);
    nb_new_solutions av p ideal nadir s n lv (where_cls CImprove cl) (where_cls CImproveUntil cl)
                     (where_cls CAccept cl) (where_cls CImpairUntil cl) (where_cls CFree cl).

  (** [m[indices]] with a list of Python ints. *)
  (* /repo/desdeo_mcdm: NIMBUS.py:567, 737-738 *)
  Definition ztake {A} (m : list A) (ix : list Z) : res (list A) := rseq (map (py_nth m) ix).
  (** [mask = np.ones(n, bool); mask[indices] = False] *)
  (* /repo/desdeo_mcdm: NIMBUS.py:734, 740 *)
  Definition keep_mask (n : nat) (ix : list Z) : list bool :=
    map (fun i => negb (existsb (fun z => match py_pos n z with Some j => Nat.eqb i j | None => false end) ix)) (seq 0 n).

  (** save_solutions_to_archive. *)
  (* /repo/desdeo_mcdm: NIMBUS.py:528-546, 717-751 *)
  Definition nb_save (sols objs : mat) (ix : list Z) : SE nb_state nb_request :=
    (if Nat.ltb 0 (length ix) then
       fo <-- lift (ztake objs ix) ;;
       smod (fun s => MkBS (bs_sol s) (bs_obj s) (bs_asols s) (bs_aobjs s ++ fo) (bs_phase s)) ;;;
       fs <-- lift (ztake sols ix) ;;
       smod (fun s => MkBS (bs_sol s) (bs_obj s) (bs_asols s ++ fs) (bs_aobjs s) (bs_phase s))
     else sret tt) ;;;
    let mask := keep_mask (length objs) ix in
    s <-- sget ;;
    sret (QInter (bs_asols s ++ select mask sols) (bs_aobjs s ++ select mask objs)).

  (** The points between two solutions: [s1 + i * step * between/norm],
      step = norm / (2 + n), for i = 1..n. *)
  (* /repo/desdeo_mcdm: NIMBUS.py:659-667 *)
  Definition nb_between (s0 s1 : vec) (n : nat) : res mat :=
    do b <- bcast2 nsub s0 s1;
    let norm := vnorm b in
    let dir := map (fun x => ndiv x norm) b in
    let step := ndiv norm (nofZ (2 + Z.of_nat n)) in
    rseq (map (fun i => bcast2 nadd s1 (vscale (nmul (nofZ (Z.of_nat i)) step) dir)) (seq 1 n)).

  (** compute_intermediate_solutions. *)
  (* /repo/desdeo_mcdm: NIMBUS.py:641-715 *)
  Definition nb_intermediate (av : asf_val) (p : nb_problem) (ideal nadir cur_sol : vec) (sols : mat) (n : Z)
    : res nb_request :=
    do s0 <- at_ sols 0;
    do s1 <- at_ sols 1;
    do pts <- nb_between s0 s1 (Z.to_nat n);
    do rs <- rseq (map (fun pt =>
      match p with
      | PMO _ evaluate co minimize =>
          do r <- minimize (APoint nadir ideal) (evaluate pt) (option_map (fun c => fun x => Ok (c x)) co) cur_sol;
          Ok (fst r, evaluate (fst r))
      | PDisc _ objs decs closest =>
          do ref <- at_ objs (closest pt);
          do i <- disc_minimize av (APoint nadir ideal) ref objs None;
          do x <- at_ decs i; do f <- at_ objs i; Ok (x, f)
      end) pts);
    Ok (QSave (map fst rs) (map snd rs)).

  (** handle_intermediate_solutions_request. *)
  (* /repo/desdeo_mcdm: NIMBUS.py:548-573 *)
  Definition nb_handle_inter (av : asf_val) (p : nb_problem) (ideal nadir : vec) (s : nb_state)
             (sols objs : mat) (d : nb_dict) : res nb_request :=
    do ix <- key (bd_indices d);
    if Nat.ltb 0 (length ix) then
      do sel <- ztake sols ix;
      do nv <- key (bd_ndes d);
      do n <- py_toint nv;
      nb_intermediate av p ideal nadir (bs_sol s) sel n
    else Ok (QPref sols objs).

  (** handle_most_preferred_request, with update_current_solution. *)
  (* /repo/desdeo_mcdm: NIMBUS.py:575-600, 602-614, 958-978 *)
  Definition nb_handle_pref (sols objs : mat) (d : nb_dict) : SE nb_state nb_request :=
    iv <-- lift (key (bd_index d)) ;;
    i <-- lift (match iv with VInt z => Ok z | _ => Raise IndexErr end) ;;
    x <-- lift (py_nth sols i) ;;
    smod (fun s => MkBS x (bs_obj s) (bs_asols s) (bs_aobjs s) (bs_phase s)) ;;;
    f <-- lift (py_nth objs i) ;;
    smod (fun s => MkBS (bs_sol s) f (bs_asols s) (bs_aobjs s) (bs_phase s)) ;;;
    cv <-- lift (key (bd_continue d)) ;;
    s <-- sget ;;
    match cv with
    | VBool true => sret (nb_request_cls s)
    | _ => sret (QStop (bs_sol s) (bs_obj s))     (* validated to be a bool *)
    end.

  (* /repo/desdeo_mcdm: NIMBUS.py:1013, 1021, 1033, 1035, 1046, 1049 (assignment to self._state) *)
  Definition w_phase (ph : nb_phase) (s : nb_state) : nb_state :=
    MkBS (bs_sol s) (bs_obj s) (bs_asols s) (bs_aobjs s) ph.

  (** The response attribute of a request: None until it is set. *)
  (* /repo/desdeo_mcdm: NIMBUS.py:507, 545, 565, 593 (request.response) *)
  Definition resp_ {A} (r : option A) : res A := match r with Some d => Ok d | None => Raise TypeErr end.

  (** iterate. *)
  (* /repo/desdeo_mcdm: NIMBUS.py:980-1059 *)
  Definition nb_iterate (av : asf_val) (p : nb_problem) (ideal nadir : vec)
             (q : nb_request) (resp : option nb_dict) : SE nb_state nb_request :=
    s <-- sget ;;
    match bs_phase s with
    | PClassify =>
        match q with
        | QClass _ =>
            d <-- lift (resp_ resp) ;;
            r <-- lift (nb_handle_cls av p ideal nadir s d) ;;
            smod (w_phase PArchive) ;;; sret r
        | _ => sraise MethodExn
        end
    | PArchive =>
        match q with
        | QSave sols objs =>
            d <-- lift (resp_ resp) ;;
            ix <-- lift (key (bd_indices d)) ;;
            r <-- nb_save sols objs ix ;;
            smod (w_phase PIntermediate) ;;; sret r
        | _ => sraise MethodExn
        end
    | PIntermediate =>
        match q with
        | QInter sols objs =>
            d <-- lift (resp_ resp) ;;
            r <-- lift (nb_handle_inter av p ideal nadir s sols objs d) ;;
            match r with
            | QSave _ _ => smod (w_phase PArchive)
            | QPref _ _ => smod (w_phase PPreferred)
            | _ => sret tt
            end ;;; sret r
        | _ => sraise MethodExn
        end
    | PPreferred =>
        match q with
        | QPref sols objs =>
            d <-- lift (resp_ resp) ;;
            r <-- nb_handle_pref sols objs d ;;
            match r with
            | QStop _ _ => smod (w_phase PEnd)
            | QClass _ => smod (w_phase PClassify)
            | _ => sret tt
            end ;;; sret r
        | _ => sraise MethodExn
        end
    | PEnd => sret q
    end.

  (** Any history: every request issued so far may be iterated (again), without a
      response or with any response its validator accepts. *)
  (* /repo/desdeo_mcdm: NIMBUS.py:354-1059 (all histories of one object) *)
  Inductive nb_reach (av : asf_val) (p : nb_problem) (ideal nadir : vec) (s0 : nb_state)
    : nb_state -> list nb_request -> Prop :=
  | nb_reach_init : nb_reach av p ideal nadir s0 s0 [nb_start s0]
  | nb_reach_step s qs q resp s' out :
      nb_reach av p ideal nadir s0 s qs -> In q qs ->
      (forall d, resp = Some d -> nb_validate p ideal nadir q d = Ok tt) ->
      nb_iterate av p ideal nadir q resp s = (s', out) ->
      nb_reach av p ideal nadir s0 s' (match out with Ok q' => q' :: qs | Raise _ => qs end).
End Nimbus.
Arguments nb_asf : clear implicits.
Arguments nb_problem : clear implicits.
Arguments nb_request : clear implicits.
Arguments nb_dict : clear implicits.
Arguments nb_state : clear implicits.
