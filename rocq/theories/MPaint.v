(** * Model of PAINT: desdeo_mcdm/approximation/PAINT.py

    Simplifications: printing and timing ([print_info]) are not modelled.  Oracles:
    scipy's Delaunay, and from desdeo_tools.utilities.polytopes [generate_polytopes],
    [inherently_nondominated] and [polytope_dominates] (their optional settings,
    epsilon and the linprog method, are one value of type [Cfg]; [None] stands for
    the defaults of desdeo_tools).  Outcomes are 2-D arrays. *)
From Coq Require Import ZArith List Bool Lia.
From Verif Require Import Num Py Np.
Import ListNotations.

Section Paint.
  Context {N : NumOps} {Cfg : Type}.
  Notation vec := (list N).
  Notation mat := (list (list N)).
  (** A row of the array of polytopes: indices of outcomes. *)
  Notation row := (list Z).

  (** The result of Delaunay(points).simplices: QhullError is told apart. *)
  (* /repo/desdeo_mcdm: PAINT.py:98-108 *)
  Inductive pt_tri : Type := TriOk (simplices : list row) | TriQhull | TriRaise (e : exn).
  (** An argument of polytope_dominates: one outcome (1-D) or the vertices of a polytope. *)
  (* /repo/desdeo_mcdm: PAINT.py:135, 164 (the arguments of polytope_dominates) *)
  Inductive pt_arg : Type := Outcome (v : vec) | Polytope (m : mat).
  (* /repo/desdeo_mcdm: PAINT.py:99, 112, 128, 135, 164 (scipy and desdeo_tools, oracles) *)
  Record pt_env := MkPT {
    pt_delaunay : mat -> pt_tri;
    pt_generate : list row -> res (list row);
    pt_inherent : mat -> option Cfg -> res bool;
    pt_dominates : pt_arg -> pt_arg -> option Cfg -> res bool }.

  (** The object: [po_outcomes], and the attribute [_po_outcomes] that perturbate writes. *)
  (* /repo/desdeo_mcdm: PAINT.py:30-38, 61 *)
  Record pt_obj := MkPO { po_outcomes : mat; po_hidden : option mat }.
  (** __init__. *)
  (* /repo/desdeo_mcdm: PAINT.py:30-38 *)
  Definition pt_ctor (m : mat) : res pt_obj :=
    let rows := length m in let cols := length (hd [] m) in
    if Nat.leb rows cols then Raise MethodExn else Ok (MkPO m None).
  (** perturbate; [noise]: np.random.uniform(-epsilon, epsilon, shape). *)
  (* /repo/desdeo_mcdm: PAINT.py:53-61 *)
  Definition pt_perturbate (noise : mat) (o : pt_obj) : pt_obj :=
    MkPO (po_outcomes o) (Some (zipw (zipw nadd) (po_outcomes o) noise)).

  (** sort_wrt_entries: [sorted] (stable) by the number of different
      entries, then the least entry. *)
  (* /repo/desdeo_mcdm: PAINT.py:51 *)
  Definition row_count (r : row) : nat := length (nodup Z.eq_dec r).
  (* /repo/desdeo_mcdm: PAINT.py:51 *)
  Definition row_min (r : row) : Z := match r with [] => 0%Z | z :: r' => fold_left Z.min r' z end.
  (* /repo/desdeo_mcdm: PAINT.py:51 (comparison of the tuples of the key function) *)
  Definition key_leb (a b : row) : bool :=
    Nat.ltb (row_count a) (row_count b) || (Nat.eqb (row_count a) (row_count b) && (row_min a <=? row_min b)%Z).
  (* /repo/desdeo_mcdm: PAINT.py:51 (sorted, stable) *)
  Fixpoint insert (x : row) (l : list row) : list row :=
    match l with [] => [x] | y :: l' => if key_leb x y then x :: y :: l' else y :: insert x l' end.
  (* /repo/desdeo_mcdm: PAINT.py:40-51 *)
  Definition pt_sort (l : list row) : res (list row) :=
    if existsb (fun r => Nat.eqb (length r) 0) l then Raise ValueErr   (* min of an empty row *)
    else Ok (fold_right insert [] l).

  Section Run.
    Context (e : pt_env) (cfg : Cfg) (P : mat).

    (** [po_outcomes[D[i]]] *)
    (* /repo/desdeo_mcdm: PAINT.py:127, 160, 162 (po_outcomes[D[i]]) *)
    Definition pt_verts (r : row) : res mat := rseq (map (py_nth P) r).

    (** Lines 133-139: does the polytope conflict with one of the outcomes? *)
    (* /repo/desdeo_mcdm: PAINT.py:134-140 *)
    Fixpoint pt_conflict (v : mat) (os : mat) : res bool :=
      match os with
      | [] => Ok false
      | o :: os' =>
          do b <- pt_dominates e (Outcome o) (Polytope v) (Some cfg);
          if b then Ok true
          else
            do b <- pt_dominates e (Polytope v) (Outcome o) (Some cfg);
            if b then Ok true else pt_conflict v os'
      end.
    (** [D[[i, d]] = D[[d, i]]] *)
    (* /repo/desdeo_mcdm: PAINT.py:130, 137 *)
    Definition pt_swap (D : list row) (i d : nat) : res (list row) :=
      do x <- at_ D i; do y <- at_ D d; do D1 <- set_ D i y; set_ D1 d x.
    (** Rule 1. *)
    (* /repo/desdeo_mcdm: PAINT.py:125-140 *)
    Fixpoint pt_rule1 (is : list nat) (D : list row) (d : nat) : res (list row * nat) :=
      match is with
      | [] => Ok (D, d)
      | i :: is' =>
          do r <- at_ D i;
          do v <- pt_verts r;
          do nd <- pt_inherent e v (Some cfg);
          do bad <- if negb nd then Ok true else pt_conflict v P;
          if bad then do D' <- pt_swap D i d; pt_rule1 is' D' (S d)
          else pt_rule1 is' D d
      end.

    (** Lines 159-169: is row i in conflict with one of the rows [ls]? *)
    (* /repo/desdeo_mcdm: PAINT.py:159-169 *)
    Fixpoint pt_clash (T : list row) (i : nat) (ls : list nat) : res bool :=
      match ls with
      | [] => Ok false
      | l :: ls' =>
          do ri <- at_ T i;
          do vi <- pt_verts ri;
          do rl <- at_ T l;
          do h <- at_ rl 0;
          if (h =? -1)%Z then pt_clash T i ls'
          else
            do vl <- pt_verts rl;
            do b <- pt_dominates e (Polytope vi) (Polytope vl) None;
            if b then Ok true
            else
              do b <- pt_dominates e (Polytope vl) (Polytope vi) None;
              if b then Ok true else pt_clash T i ls'
      end.
    (** Rule 2; [T[i] = -1] writes a whole row. *)
    (* /repo/desdeo_mcdm: PAINT.py:158-169 *)
    Fixpoint pt_rule2 (is : list nat) (T : list row) : res (list row) :=
      match is with
      | [] => Ok T
      | i :: is' =>
          do b <- pt_clash T i (seq (i + 1) (length T - (i + 1)));
          if b then do r <- at_ T i; do T' <- set_ T i (map (fun _ => (-1)%Z) r); pt_rule2 is' T'
          else pt_rule2 is' T
      end.

    (** approximate, for given outcomes. *)
    (* /repo/desdeo_mcdm: PAINT.py:95-181 *)
    Definition pt_run : res (list row) :=
      match pt_delaunay e P with
      | TriQhull => Raise MethodExn
      | TriRaise x => Raise x
      | TriOk simplices =>
          do D <- pt_generate e simplices;
          do Dd <- pt_rule1 (seq 0 (length D)) D 0;
          do T <- pt_sort (skipn (snd Dd) (fst Dd));
          do T <- pt_rule2 (rev (seq 0 (length T))) T;
          Ok (filter (existsb (fun z => (0 <=? z)%Z)) T)
      end.
  End Run.

  (** approximate: the argument po_outcomes replaces the attribute. *)
  (* /repo/desdeo_mcdm: PAINT.py:63-181 *)
  Definition pt_approximate (e : pt_env) (cfg : Cfg) (given : option mat) (o : pt_obj) : res (list row) :=
    pt_run e cfg (match given with Some P => P | None => po_outcomes o end).
End Paint.
Arguments pt_env : clear implicits.
Arguments pt_arg : clear implicits.
Arguments pt_obj : clear implicits.
