(** * The achievement scalarizing function of desdeo_tools used by the reference
    point method and by NAUTILUS, and its minimization over a data set.
    desdeo_tools is not part of the repository: this is what its documentation
    and sources say, and is trusted. *)
From Coq Require Import ZArith List Bool.
From Verif Require Import Num Py Np.
Import ListNotations.

Section Asf.
  Context {N : NumOps}.
  Notation vec := (list N).
  Notation mat := (list (list N)).

  (** ReferencePointASF(w, nadir, utopian, rho)(f, reference_point=q) of
      desdeo_tools, on one row:
      max_i w_i (f_i - q_i) + rho * sum_i (f_i - q_i) / (nadir_i - utopian_i). *)
  (* desdeo_tools (not in /repo), as called at Nautilus.py:845-852, NautilusV2.py:955-964, ReferencePointMethod.py:587-613 *)
  Definition rp_asf (rho : N) (w nadir utopian f q : vec) : res N :=
    do d <- bcast2 nsub f q;
    do p <- bcast2 nmul w d;
    do m <- npmax p;
    do r <- bcast2 nsub nadir utopian;
    do e <- bcast2 ndiv d r;
    Ok (nadd m (nmul rho (vsum e))).

  (** DiscreteMinimizer.minimize without constraints: np.nanargmin over the rows
      (ReferencePointMethod.py 604-613). *)
  (* desdeo_tools (not in /repo), as called at ReferencePointMethod.py:604-613 (DiscreteMinimizer) *)
  Definition rp_disc (rho : N) (w nadir utopian : vec) (objs : mat) (q : vec) : res nat :=
    do vals <- rseq (map (fun f => rp_asf rho w nadir utopian f q) objs);
    npnanargmin vals.
End Asf.
