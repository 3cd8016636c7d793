(** * Model of desdeo_mcdm/utilities/solvers.py

    Simplifications: what is printed is not modelled; the objective evaluator and
    the constraint evaluator return (they do not raise), one vector for one vector
    of decision variables; the ideal and the nadir are 1-D arrays.  Oracles:
    ScalarMinimizer(...).minimize(...) of desdeo_tools, which is given everything it
    can see of the call (the function to minimise, the bounds, the constraint
    evaluator, the name of the method, the guess); PointMethodASF of desdeo_tools;
    and [math.ceil], which raises on NaN and the infinities (OverflowError is
    written ValueErr). *)
From Coq Require Import String.
From Coq Require Import ZArith List Bool Lia.
From Verif Require Import Num Py Np MRpm MParetoNav.
Import ListNotations.

Section Solvers.
  Context {N : NumOps}.
  Notation vec := (list N).
  Notation mat := (list (list N)).

  (** One call of minimize. *)
  (* /repo/desdeo_mcdm: utilities/solvers.py:85-86, 231-232 *)
  Record sv_job := MkJob {
    sj_fun : vec -> res N; sj_bounds : list (N * N); sj_constr : option (vec -> vec);
    sj_method : string; sj_guess : option vec }.
  (* /repo/desdeo_mcdm: utilities/solvers.py:77, 86, 206, 232 (ScalarMinimizer, oracle) *)
  Record sv_env := MkSE {
    sv_minimize : sv_job -> res (vec * bool);     (* res["x"], res["success"] *)
    sv_asf : vec -> vec -> vec -> vec -> res N;   (* PointMethodASF(nadir, ideal)(f, reference_point) *)
    sv_ceil : N -> res Z }.

  (** weighted_scalarizer, for one objective vector. *)
  (* /repo/desdeo_mcdm: utilities/solvers.py:22-32 *)
  Definition sv_weighted (f ws : vec) : res N := do p <- bcast2 nmul f ws; Ok (vsum p).

  (** Lines 89, 243-247: [a[i] = v] for a row of [w] entries. *)
  (* /repo/desdeo_mcdm: utilities/solvers.py:89, 243-247 *)
  Definition bc_row (w : nat) (v : vec) : res vec :=
    if Nat.eqb (length v) w then Ok v
    else match v with [x] => Ok (repeat x w) | _ => Raise ValueErr end.

  Section Calls.
    Context (e : sv_env) (eval : vec -> vec) (n : nat) (bounds : list (N * N)).

    (** payoff_table_method_general. *)
    (* /repo/desdeo_mcdm: utilities/solvers.py:85-89 *)
    Definition sv_po_row (constr : option (vec -> vec)) (method : string) (guess : vec) (i : nat) : res vec :=
      do xs <- sv_minimize e (MkJob (fun x => sv_weighted (eval x) (unit_row n i)) bounds constr method (Some guess));
      bc_row n (eval (fst xs)).
    (** Line 91. *)
    (* /repo/desdeo_mcdm: utilities/solvers.py:91 *)
    Definition sv_diag (t : mat) : res vec := rseq (map (fun i => do r <- at_ t i; at_ r i) (seq 0 n)).
    (** Line 92, np.max(po_table, axis=0); an array without columns has an empty maximum. *)
    (* /repo/desdeo_mcdm: utilities/solvers.py:92 *)
    Definition sv_colmax (t : mat) : res vec := match n with 0 => Ok [] | _ => np_max0 t end.
    (* /repo/desdeo_mcdm: utilities/solvers.py:35-94 *)
    Definition sv_payoff (constr : option (vec -> vec)) (guess : option vec) (method : string) : res (vec * vec) :=
      let g := match guess with Some g => g | None => map fst bounds end in
      do t <- rseq (map (sv_po_row constr method g) (seq 0 n));
      do ideal <- sv_diag t;
      do nadir <- sv_colmax t;
      Ok (ideal, nadir).

    (** Line 196, np.isinf of the ideal or the nadir; [np.isinf(None)] is a TypeError. *)
    (* /repo/desdeo_mcdm: utilities/solvers.py:196 *)
    Definition sv_all_inf (a : option vec) : res bool :=
      match a with None => Raise TypeErr | Some v => Ok (forallb nisinf v) end.

    (** Lines 196-200. *)
    (* /repo/desdeo_mcdm: utilities/solvers.py:196-200 *)
    Definition sv_points (constr : option (vec -> vec)) (ideal nadir : option vec) : res (vec * vec) :=
      do a <- sv_all_inf ideal;
      do b <- (if a : bool then Ok true else sv_all_inf nadir);
      if b : bool then sv_payoff constr None "scipy_de"%string
      else match ideal, nadir with
           | Some i, Some d => Ok (i, d)
           | _, None => Raise TypeErr         (* ideal all infinite is the only way to get here *)
           | None, _ => Raise TypeErr
           end.

    (** What may be given as the step: a float, a 1-D array, an array of another
        rank, or something else (an int, say). *)
    (* /repo/desdeo_mcdm: utilities/solvers.py:209-223 (the argument step) *)
    Inductive sv_step : Type := StFloat (s : N) | StArr (v : vec) | StArrND | StOther.

    (** Lines 212-223: the steps of the slices. *)
    (* /repo/desdeo_mcdm: utilities/solvers.py:212-223 *)
    Definition sv_steps (k : nat) (st : sv_step) : res vec :=
      match st with
      | StFloat s => Ok (repeat s k)
      | StArr v => if Nat.eqb (length v) k then Ok v else Raise MethodExn
      | StArrND | StOther => Raise MethodExn
      end.

    (** One axis of np.mgrid: [i * step + start] for [i < ceil((stop - start) / step)]. *)
    (* /repo/desdeo_mcdm: utilities/solvers.py:213, 220, 225 (np.mgrid, numpy) *)
    Definition sv_axis (lo up eps s : N) : res vec :=
      do c <- sv_ceil e (ndiv (nsub (nadd up eps) lo) s);
      if (c <? 0)%Z then Raise ValueErr
      else Ok (map (fun i => nadd (nmul (nofZ (Z.of_nat i)) s) lo) (seq 0 (Z.to_nat c))).
    (* /repo/desdeo_mcdm: utilities/solvers.py:213, 220 *)
    Fixpoint sv_axes (lo up : vec) (eps : N) (ss : vec) : res mat :=
      match lo, up, ss with
      | l :: lo', u :: up', s :: ss' => do a <- sv_axis l u eps s; do r <- sv_axes lo' up' eps ss'; Ok (a :: r)
      | _, _, _ => Ok []
      end.
    (** All points of the grid, the last coordinate changing fastest. *)
    (* /repo/desdeo_mcdm: utilities/solvers.py:225 *)
    Fixpoint sv_mesh (axes : mat) : mat :=
      match axes with [] => [[]] | a :: r => flat_map (fun x => map (cons x) (sv_mesh r)) a end.

    (** Lines 209-225: the reference points.  Without an objective the reshape of
        raises ValueError. *)
    (* /repo/desdeo_mcdm: utilities/solvers.py:209-225 *)
    Definition sv_grid (ideal nadir : vec) (eps : N) (st : sv_step) : res mat :=
      if negb (Nat.eqb (length ideal) (length nadir)) then Raise ValueErr
      else
        do ss <- sv_steps (length ideal) st;
        do axes <- sv_axes (zipw nminimum ideal nadir) (zipw nmaximum ideal nadir) eps ss;
        match ideal with [] => Raise ValueErr | _ => Ok (sv_mesh axes) end.

    (** The number of columns of the array of variables: [len] of the
        squeezed array of bounds. *)
    (* /repo/desdeo_mcdm: utilities/solvers.py:228 *)
    Definition sv_width : nat := match length bounds with 1 => 2 | k => k end.

    (** Lines 242 and 252-255: the rows that are not all NaN. *)
    (* /repo/desdeo_mcdm: utilities/solvers.py:242, 252-255 *)
    Definition all_nan (r : vec) : bool := forallb nisnan r.
    (* /repo/desdeo_mcdm: utilities/solvers.py:242, 252-255 *)
    Definition not_nan_rows (m : mat) : mat := filter (fun r => negb (all_nan r)) m.
    (** Line 242, [np.all(f > m)] for a matrix of rows of [d] entries. *)
    (* /repo/desdeo_mcdm: utilities/solvers.py:242 *)
    Definition sv_above (d : nat) (f : vec) (m : mat) : res bool :=
      do _ <- bcast2 nltb (repeat nnan d) f;
      do rows <- rseq (map (fun r => bcast2 nltb r f) m);
      Ok (forallb (forallb (fun b : bool => b)) rows).

    (** Lines 230-250: the pair of the rows of p_front_objectives and
        p_front_variables written so far; the pass numbered [length (fst acc)]
        reads and writes only these. *)
    (* /repo/desdeo_mcdm: utilities/solvers.py:230-250 *)
    Definition sv_pass (d : nat) (method : string) (ideal nadir z : vec) (acc : mat * mat) : res (mat * mat) :=
      do xs <- sv_minimize e (MkJob (fun x => sv_asf e nadir ideal (eval x) z) bounds None method None);
      let nanrow := (fst acc ++ [repeat nnan d], snd acc ++ [repeat nnan sv_width]) in
      if negb (snd xs) then Ok nanrow
      else
        let f := eval (fst xs) in
        do above <- sv_above d f (not_nan_rows (fst acc));
        if negb above || Nat.ltb (length (fst acc)) 1 then
          do fr <- bc_row d f;
          do xr <- bc_row sv_width (fst xs);
          Ok (fst acc ++ [fr], snd acc ++ [xr])
        else Ok nanrow.
    (* /repo/desdeo_mcdm: utilities/solvers.py:230-250 *)
    Fixpoint sv_loop (d : nat) (method : string) (ideal nadir : vec) (zs : mat) (acc : mat * mat) : res (mat * mat) :=
      match zs with
      | [] => Ok acc
      | z :: zs' => do acc' <- sv_pass d method ideal nadir z acc; sv_loop d method ideal nadir zs' acc'
      end.

    (** solve_pareto_front_representation_general: (variables, objectives). *)
    (* /repo/desdeo_mcdm: utilities/solvers.py:131-255 *)
    Definition sv_front (st : sv_step) (eps : N) (ideal nadir : option vec) (constr : option (vec -> vec)) (method : string) : res (mat * mat) :=
      do p <- sv_points constr ideal nadir;
      do zs <- sv_grid (fst p) (snd p) eps st;
      do acc <- sv_loop (length (fst p)) method (fst p) (snd p) zs ([], []);
      Ok (not_nan_rows (snd acc), not_nan_rows (fst acc)).
  End Calls.

  (** What the two wrappers read of a MOProblem. *)
  (* /repo/desdeo_mcdm: utilities/solvers.py:116-128, 297-317 (what is read of the problem) *)
  Record sv_problem := MkSP {
    sp_eval : vec -> vec; sp_n : nat; sp_bounds : list (N * N);
    sp_nconstr : nat; sp_constr : vec -> vec;
    sp_ideal : option vec; sp_nadir : option vec }.
  (** Lines 117-120 and 297-300. *)
  (* /repo/desdeo_mcdm: utilities/solvers.py:117-120, 297-300 *)
  Definition sp_constraints (p : sv_problem) : option (vec -> vec) :=
    if Nat.ltb 0 (sp_nconstr p) then Some (sp_constr p) else None.
  (** payoff_table_method. *)
  (* /repo/desdeo_mcdm: utilities/solvers.py:97-128 *)
  Definition sv_payoff_problem (e : sv_env) (p : sv_problem) (guess : option vec) (method : string) : res (vec * vec) :=
    sv_payoff e (sp_eval p) (sp_n p) (sp_bounds p) (sp_constraints p) guess method.
  (** solve_pareto_front_representation. *)
  (* /repo/desdeo_mcdm: utilities/solvers.py:258-317 *)
  Definition sv_front_problem (e : sv_env) (p : sv_problem) (st : sv_step) (eps : N) (method : string) : res (mat * mat) :=
    sv_front e (sp_eval p) (sp_n p) (sp_bounds p) st eps (sp_ideal p) (sp_nadir p) (sp_constraints p) method.
End Solvers.
Arguments sv_job : clear implicits.
Arguments sv_env : clear implicits.
Arguments sv_step : clear implicits.
Arguments sv_problem : clear implicits.
