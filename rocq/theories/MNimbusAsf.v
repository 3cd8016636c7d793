(** * The achievement scalarizing functions of desdeo_tools that NIMBUS uses.
    desdeo_tools is not part of the repository: these are the formulas of its
    documentation (Miettinen and Makela, Synchronous approach in interactive
    multiobjective optimization) with [delta] the distance of the utopian point
    to the ideal one and [rho] the factor of the augmentation term; trusted. *)
From Coq Require Import ZArith List Bool.
From Verif Require Import Num Py Np MNimbus.
Import ListNotations.

Section NimbusAsf.
  Context {N : NumOps}.
  Notation vec := (list N).
  Variables delta rho : N.

  (** The utopian point. *)
  (* desdeo_tools (not in /repo), as called at NIMBUS.py:397, 430, 672, 783, 861, 892, 917 *)
  Definition utopian_of (ideal : vec) : vec := map (fun x => nsub x delta) ideal.
  (** The positions [0 .. n-1] that are not in [ex]. *)
  (* desdeo_tools (not in /repo), as called at NIMBUS.py:917 (indices_to_exclude) *)
  Definition not_in (n : nat) (ex : list nat) : list nat :=
    filter (fun i => negb (existsb (Nat.eqb i) ex)) (seq 0 n).

  (** MaxOfTwoASF, StomASF, PointMethodASF, GuessASF of desdeo_tools on one objective
      vector [f] with reference point [z]: a maximum of scaled distances plus
      [rho] times a sum of scaled objectives. *)
  (* desdeo_tools (not in /repo), as called at NIMBUS.py:397, 430, 672, 783, 861, 892, 917 *)
  Definition nb_asf_doc : @asf_val N := fun a f z =>
    match a with
    | APoint nadir ideal =>
        let w := vsub nadir (utopian_of ideal) in
        do d <- bcast2 nsub f z; do t <- bcast2 ndiv d w; do m <- npmax t;
        do e <- bcast2 ndiv f w; Ok (nadd m (nmul rho (vsum e)))
    | AMaxOfTwo nadir ideal lt lte =>
        let w := vsub nadir (utopian_of ideal) in
        do f1 <- take f lt; do i1 <- take ideal lt; do w1 <- take w lt;
        do f2 <- take f lte; do z2 <- take z lte; do w2 <- take w lte;
        do m <- npmax (zipw ndiv (vsub f1 i1) w1 ++ zipw ndiv (vsub f2 z2) w2);
        do e <- bcast2 ndiv f w; Ok (nadd m (nmul rho (vsum e)))
    | AStom ideal =>
        let u := utopian_of ideal in
        let w := vsub z u in
        do d <- bcast2 nsub f u; do t <- bcast2 ndiv d w; do m <- npmax t;
        do e <- bcast2 ndiv f w; Ok (nadd m (nmul rho (vsum e)))
    | AGuess nadir ideal ex =>
        let inc := not_in (length f) ex in
        let w := vsub nadir z in
        do f1 <- take f inc; do n1 <- take nadir inc; do w1 <- take w inc;
        do m <- npmax (zipw ndiv (vsub f1 n1) w1);
        do f2 <- take f ex; do w2 <- take (vsub nadir (utopian_of ideal)) ex;
        Ok (nadd m (nmul rho (nadd (vsum (zipw ndiv f1 w1)) (vsum (zipw ndiv f2 w2)))))
    end.
End NimbusAsf.
