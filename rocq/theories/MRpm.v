(** * Model of the Reference Point Method: desdeo_mcdm/interactive/ReferencePointMethod.py

    Simplifications: messages, objective names and multipliers are not part of
    the state (they are never read after construction); the buffer [_ds], which
    is never used, is left out.  The arrays that replace the lists when they are
    enlarged hold the same elements: numpy 1.23.5, the version of
    poetry.lock, makes an object array of a list of None and arrays (from 1.24 on
    it raises ValueError, so iteration 8 fails there). *)
From Coq Require Import ZArith List Bool Lia.
From Verif Require Import Num Py Np MAsf.
Import ListNotations.

Section Rpm.
  Context {N : NumOps}.
  Notation vec := (list N).
  Notation mat := (list (list N)).

  (** MOProblem: objectives, constraints (read and then never used),
      half of the variables' upper bounds, and what ScalarMinimizer.minimize
      returns as res["x"] for ReferencePointASF(w, nadir, utopian, rho=1e-4), a
      reference point and a starting point.
      DiscreteDataProblem: its two arrays. *)
  (* /repo/desdeo_mcdm: ReferencePointMethod.py:292-314 *)
  Inductive rp_problem : Type :=
  | RMO (evaluate : vec -> vec) (constr : option (vec -> vec)) (x0 : vec)
        (minimize : vec -> vec -> vec -> vec -> vec -> res vec)
  | RDisc (objs decs : mat).

  (** solve_asf, followed by its use in the handlers: the pair of the
      decision and the objective vector found. *)
  (* /repo/desdeo_mcdm: ReferencePointMethod.py:554-613, 385-393 *)
  Definition rp_solve (p : rp_problem) (rho : N) (w nadir utopian q x0 : vec) : res (vec * vec) :=
    match p with
    | RMO evaluate _ _ minimize =>
        do x <- minimize w nadir utopian q x0; Ok (x, evaluate x)
    | RDisc objs decs =>
        do i <- rp_disc rho w nadir utopian objs q;
        do x <- at_ decs i; do f <- at_ objs i; Ok (x, f)
    end.

  (** The starting point. *)
  (* /repo/desdeo_mcdm: ReferencePointMethod.py:365-369, 473-477 *)
  Definition rp_x0 (p : rp_problem) : res vec :=
    match p with RMO _ _ x0 _ => Ok x0 | RDisc _ decs => at_ decs 0 end.

  (** calculate_prp: row i is [q + d * e_i]. *)
  (* /repo/desdeo_mcdm: ReferencePointMethod.py:541-552 *)
  Definition unit_row (k i : nat) : vec := map (fun j => if Nat.eqb j i then nofZ 1 else nofZ 0) (seq 0 k).
  (* /repo/desdeo_mcdm: ReferencePointMethod.py:528-552 *)
  Definition rp_prp (q f : vec) : res mat :=
    do diff <- bcast2 nsub q f;
    let d := vnorm diff in
    rseq (map (fun i => bcast2 nadd q (vscale d (unit_row (length q) i))) (seq 0 (length q))).

  (** ** Requests and responses *)
  (* /repo/desdeo_mcdm: ReferencePointMethod.py:46-71, 107-134, 168-185 *)
  Inductive rp_request : Type :=
  | RInit                                       (* RPMInitialRequest *)
  | RReq (f_current : vec) (f_additionals : mat)  (* RPMRequest *)
  | RStop (x f : option vec).                   (* RPMStopRequest; None if the buffer holds None *)

  (** What may be given as a reference point: a 1-D array, an array of another
      rank, or something without a shape. *)
  (* /repo/desdeo_mcdm: ReferencePointMethod.py:25-43 (what may be given as a reference point) *)
  Inductive rp_arr : Type := RArr (v : vec) | RArrND | RNoArr.

  (* /repo/desdeo_mcdm: ReferencePointMethod.py:98-104, 148-165 (the keys that are read) *)
  Record rp_dict := MkRD {
    rd_ref : option rp_arr; rd_sat : option (pyval N); rd_idx : option (pyval N) }.

  (** validate_reference_point. *)
  (* /repo/desdeo_mcdm: ReferencePointMethod.py:25-43 *)
  Definition rp_validate_ref (a : rp_arr) (ideal nadir : vec) : res unit :=
    match a with
    | RNoArr => Raise AttrErr
    | RArrND => Raise MethodExn
    | RArr q =>
        if negb (Nat.eqb (length ideal) (length q)) then Raise MethodExn
        else if forallb (fun x => x) (zipw nltb nadir q) then Raise MethodExn
        else Ok tt
    end.

  (** ["satisfied" in response and response["satisfied"]] *)
  (* /repo/desdeo_mcdm: ReferencePointMethod.py:148, 440 ("satisfied") *)
  Definition rp_satisfied (d : rp_dict) : bool :=
    match rd_sat d with Some v => truthy v | None => false end.

  (** The two response setters; a stop request takes any response. *)
  (* /repo/desdeo_mcdm: ReferencePointMethod.py:87-104, 137-165 *)
  Definition rp_validate (ideal nadir : vec) (q : rp_request) (d : rp_dict) : res unit :=
    match q with
    | RInit => match rd_ref d with None => Raise MethodExn | Some a => rp_validate_ref a ideal nadir end
    | RReq f _ =>
        if rp_satisfied d then
          do i <- key (rd_idx d);
          if negb (truthy i) && negb (py_eq i 0) then Raise MethodExn
          else
            do lo <- py_ge i 0;
            do hi <- (if lo : bool then py_le i (Z.of_nat (length f)) else Ok false);
            if hi : bool then Ok tt else Raise MethodExn
        else match rd_ref d with None => Raise MethodExn | Some a => rp_validate_ref a ideal nadir end
    | RStop _ _ => Ok tt
    end.

  (** ** The method object *)
  (* /repo/desdeo_mcdm: ReferencePointMethod.py:271-290 *)
  Record rp_state := MkRS {
    rs_h : nat;
    rs_qs : list (option vec); rs_xs : list (option vec); rs_fs : list (option vec);
    rs_pqs : list (option mat); rs_axs : list (option mat); rs_afs : list (option mat);
    rs_q : option vec; rs_w : vec }.

  (** __init__, on ideal and nadir, the number of objective names
      and the length of the minimize list ([None]: not given; an empty list is
      falsy).  The minimize list is not looked at: the code tests the names. *)
  (* /repo/desdeo_mcdm: ReferencePointMethod.py:246-263 *)
  Definition rp_ctor_check (ideal nadir : vec) (names minimize : option nat) : res unit :=
    if negb (Nat.eqb (length ideal) (length nadir)) then Raise MethodExn
    else
      do _ <- match names with
              | Some (S n) => if Nat.eqb (S n) (length ideal) then Ok tt else Raise MethodExn
              | _ => Ok tt
              end;
      match minimize with
      | Some (S _) => match names with
                      | None => Raise TypeErr
                      | Some n => if Nat.eqb n (length ideal) then Ok tt else Raise MethodExn
                      end
      | _ => Ok tt
      end.
  (* /repo/desdeo_mcdm: ReferencePointMethod.py:265-290 *)
  Definition rp_init : rp_state :=
    MkRS 1 (repeat None 10) (repeat None 10) (repeat None 10)
         (repeat None 10) (repeat None 10) (repeat None 10) None [].

  (* /repo/desdeo_mcdm: ReferencePointMethod.py:450 (assignment to self._h) *)
  Definition w_h s h := MkRS h (rs_qs s) (rs_xs s) (rs_fs s) (rs_pqs s) (rs_axs s) (rs_afs s) (rs_q s) (rs_w s).
  (* /repo/desdeo_mcdm: ReferencePointMethod.py:360, 455, 463 (assignment to self._qs) *)
  Definition w_qs s v := MkRS (rs_h s) v (rs_xs s) (rs_fs s) (rs_pqs s) (rs_axs s) (rs_afs s) (rs_q s) (rs_w s).
  (* /repo/desdeo_mcdm: ReferencePointMethod.py:388, 392, 456, 491, 495 (assignment to self._xs) *)
  Definition w_xs s v := MkRS (rs_h s) (rs_qs s) v (rs_fs s) (rs_pqs s) (rs_axs s) (rs_afs s) (rs_q s) (rs_w s).
  (* /repo/desdeo_mcdm: ReferencePointMethod.py:389, 393, 457, 492, 496 (assignment to self._fs) *)
  Definition w_fs s v := MkRS (rs_h s) (rs_qs s) (rs_xs s) v (rs_pqs s) (rs_axs s) (rs_afs s) (rs_q s) (rs_w s).
  (* /repo/desdeo_mcdm: ReferencePointMethod.py:396, 458, 499 (assignment to self._pqs) *)
  Definition w_pqs s v := MkRS (rs_h s) (rs_qs s) (rs_xs s) (rs_fs s) v (rs_axs s) (rs_afs s) (rs_q s) (rs_w s).
  (* /repo/desdeo_mcdm: ReferencePointMethod.py:416, 419, 459, 519, 522 (assignment to self._axs) *)
  Definition w_axs s v := MkRS (rs_h s) (rs_qs s) (rs_xs s) (rs_fs s) (rs_pqs s) v (rs_afs s) (rs_q s) (rs_w s).
  (* /repo/desdeo_mcdm: ReferencePointMethod.py:417, 420, 460, 520, 523 (assignment to self._afs) *)
  Definition w_afs s v := MkRS (rs_h s) (rs_qs s) (rs_xs s) (rs_fs s) (rs_pqs s) (rs_axs s) v (rs_q s) (rs_w s).
  (* /repo/desdeo_mcdm: ReferencePointMethod.py:361, 464 (assignment to self._q) *)
  Definition w_q s v := MkRS (rs_h s) (rs_qs s) (rs_xs s) (rs_fs s) (rs_pqs s) (rs_axs s) (rs_afs s) v (rs_w s).
  (* /repo/desdeo_mcdm: ReferencePointMethod.py:364, 467 (assignment to self._w) *)
  Definition w_w s v := MkRS (rs_h s) (rs_qs s) (rs_xs s) (rs_fs s) (rs_pqs s) (rs_axs s) (rs_afs s) (rs_q s) v.

  (** [self._buf[self._h] = v] *)
  (* /repo/desdeo_mcdm: ReferencePointMethod.py:360-420, 463-523 (assignment to slot self._h) *)
  Definition sput {A} (get : rp_state -> list A) (put : rp_state -> list A -> rp_state) (v : A) : SE rp_state unit :=
    s <-- sget ;; l <-- lift (set_ (get s) (rs_h s) v) ;; smod (fun s => put s l).

  (* /repo/desdeo_mcdm: ReferencePointMethod.py:267 *)
  Definition rp_utopian (ideal : vec) (eps : N) : vec := map (fun x => nsub x eps) ideal.

  (** The iteration proper (the same text), with the
      reference point [a] of the response.  A value that is not an array of the
      right shape does not get here through the validator. *)
  (* /repo/desdeo_mcdm: ReferencePointMethod.py:359-423, 463-526 *)
  Definition rp_round (p : rp_problem) (rho eps : N) (ideal nadir : vec) (a : rp_arr) : SE rp_state rp_request :=
    q <-- lift (match a with RArr v => Ok v | _ => Raise TypeErr end) ;;
    sput rs_qs w_qs (Some q) ;;;
    smod (fun s => w_q s (Some q)) ;;;
    den <-- lift (bcast2 nsub (rp_utopian ideal eps) nadir) ;;
    w <-- lift (bcast2 ndiv q den) ;;
    smod (fun s => w_w s w) ;;;
    x0 <-- lift (rp_x0 p) ;;
    r <-- lift (rp_solve p rho w nadir (rp_utopian ideal eps) q x0) ;;
    sput rs_xs w_xs (Some (fst r)) ;;;
    sput rs_fs w_fs (Some (snd r)) ;;;
    pq <-- lift (rp_prp q (snd r)) ;;
    sput rs_pqs w_pqs (Some pq) ;;;
    rs <-- lift (rseq (map (fun pqi => rp_solve p rho w nadir (rp_utopian ideal eps) pqi x0) pq)) ;;
    sput rs_axs w_axs (Some (map fst rs)) ;;;
    sput rs_afs w_afs (Some (map snd rs)) ;;;
    sret (RReq (snd r) (map snd rs)).

  (** [row[i]] for a buffer entry and a Python value: None is not subscriptable, a
      float is not an index. *)
  (* /repo/desdeo_mcdm: ReferencePointMethod.py:444-446 *)
  Definition sub_ {A} (o : option (list A)) (i : pyval N) : res A :=
    match o, as_int i with
    | Some l, Some z => py_nth l z
    | _, _ => Raise TypeErr
    end.

  (** [None] * 10 appended to a buffer. *)
  (* /repo/desdeo_mcdm: ReferencePointMethod.py:452-460 *)
  Definition grow {A} (l : list (option A)) : list (option A) := l ++ repeat None 10.
  (* /repo/desdeo_mcdm: ReferencePointMethod.py:452-460 *)
  Definition rp_grow (s : rp_state) : rp_state :=
    if Nat.leb (length (rs_qs s)) (rs_h s + 2) then
      MkRS (rs_h s) (grow (rs_qs s)) (grow (rs_xs s)) (grow (rs_fs s)) (grow (rs_pqs s)) (grow (rs_axs s)) (grow (rs_afs s)) (rs_q s) (rs_w s)
    else s.

  (** [i - 1] keeps the type of a number. *)
  (* /repo/desdeo_mcdm: ReferencePointMethod.py:445 *)
  Definition pred_val (i : pyval N) : pyval N :=
    match i with
    | VInt z => VInt (z - 1) | VBool b => VInt (bool2Z b - 1)
    | VFloat x t => VFloat (nsub x (nofZ 1)) (option_map (fun z => z - 1)%Z t)
    | v => v
    end.

  (** handle_request. *)
  (* /repo/desdeo_mcdm: ReferencePointMethod.py:425-526 *)
  Definition rp_handle (p : rp_problem) (rho eps : N) (ideal nadir : vec) (d : rp_dict) : SE rp_state rp_request :=
    if rp_satisfied d then
      i <-- lift (key (rd_idx d)) ;;
      s <-- sget ;;
      if py_eq i 0 then
        x <-- lift (at_ (rs_xs s) (rs_h s)) ;; f <-- lift (at_ (rs_fs s) (rs_h s)) ;; sret (RStop x f)
      else
        ax <-- lift (at_ (rs_axs s) (rs_h s)) ;; x <-- lift (sub_ ax (pred_val i)) ;;
        af <-- lift (at_ (rs_afs s) (rs_h s)) ;; f <-- lift (sub_ af (pred_val i)) ;;
        sret (RStop (Some x) (Some f))
    else
      smod (fun s => w_h s (S (rs_h s))) ;;;
      smod rp_grow ;;;
      a <-- lift (key (rd_ref d)) ;;
      rp_round p rho eps ideal nadir a.

  (** The response attribute of a request: None until it is set. *)
  (* /repo/desdeo_mcdm: ReferencePointMethod.py:360, 437 (request.response) *)
  Definition rp_resp (r : option rp_dict) : res rp_dict := match r with Some d => Ok d | None => Raise TypeErr end.

  (** iterate, and handle_initial_request. *)
  (* /repo/desdeo_mcdm: ReferencePointMethod.py:326-346, 348-423 *)
  Definition rp_iterate (p : rp_problem) (rho eps : N) (ideal nadir : vec) (q : rp_request) (resp : option rp_dict)
    : SE rp_state rp_request :=
    match q with
    | RInit => d <-- lift (rp_resp resp) ;; a <-- lift (key (rd_ref d)) ;; rp_round p rho eps ideal nadir a
    | RReq _ _ => d <-- lift (rp_resp resp) ;; rp_handle p rho eps ideal nadir d
    | RStop _ _ => sret q
    end.

  (** Any history: every issued request may be iterated (again), unanswered or
      with any response its setter accepts; [issued] is what start and iterate
      have returned. *)
  (* /repo/desdeo_mcdm: ReferencePointMethod.py:188-526 (all histories of one object) *)
  Inductive rp_reach (p : rp_problem) (rho eps : N) (ideal nadir : vec) : rp_state -> list rp_request -> Prop :=
  | rp_reach_init : rp_reach p rho eps ideal nadir rp_init [RInit]
  | rp_reach_step s qs q resp s' out :
      rp_reach p rho eps ideal nadir s qs -> In q qs ->
      (forall d, resp = Some d -> rp_validate ideal nadir q d = Ok tt) ->
      rp_iterate p rho eps ideal nadir q resp s = (s', out) ->
      rp_reach p rho eps ideal nadir s' (match out with Ok q' => q' :: qs | Raise _ => qs end).
End Rpm.
Arguments rp_problem : clear implicits.
Arguments rp_request : clear implicits.
Arguments rp_dict : clear implicits.
Arguments rp_arr : clear implicits.
Arguments rp_state : clear implicits.
