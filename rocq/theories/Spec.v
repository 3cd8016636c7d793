(** * Vocabulary of the property statements.

    Everything here is independent of the models; [num] values are compared with
    the instance's [<=]. *)
From Coq Require Import ZArith List Bool Sorted Reals.
From Verif Require Import Num NumXR.
Import ListNotations.

Section Spec.
  Context {N : NumOps}.
  Notation vec := (list N).

  (** Componentwise [a <= b], same number of components. *)
  Definition vle (a b : vec) : Prop := Forall2 (fun x y => nleb x y = true) a b.

  (** The box [lb, ub]. *)
  Definition in_box (v lb ub : vec) : Prop := vle lb v /\ vle v ub.

  (** [a] Pareto-dominates [b]: no worse everywhere and not the other way round. *)
  Definition dominates (a b : vec) : Prop := vle a b /\ ~ vle b a.

  (** No row of the front dominates another row. *)
  Definition mutually_nondominated (front : list vec) : Prop :=
    forall a b, In a front -> In b front -> ~ dominates a b.

  (** All rows have [k] entries. *)
  Definition is_matrix (k : nat) (m : list vec) : Prop := Forall (fun r => length r = k) m.

  Definition nan_free (v : vec) : Prop := Forall (fun x => nisnan x = false) v.
  Definition nan_free_m (m : list vec) : Prop := Forall nan_free m.
End Spec.

(** Strictly increasing list of indices. *)
Definition increasing (l : list nat) : Prop := StronglySorted lt l.

(** Finite real vectors and matrices as arrays of the exact instance. *)
Definition xv (v : list R) : list XR := map Fin v.
Definition xm (m : list (list R)) : list (list XR) := map xv m.

(** Componentwise order on real vectors. *)
Definition rvle (a b : list R) : Prop := Forall2 Rle a b.

(** Euclidean distance of two real vectors. *)
Fixpoint rsqdist (a b : list R) : R :=
  match a, b with
  | x :: a', y :: b' => ((x - y) * (x - y) + rsqdist a' b')%R
  | _, _ => 0%R
  end.
Definition rdist (a b : list R) : R := sqrt (rsqdist a b).

(** [c1 * a + c2 * b] *)
Fixpoint rcomb (c1 : R) (a : list R) (c2 : R) (b : list R) : list R :=
  match a, b with
  | x :: a', y :: b' => (c1 * x + c2 * y)%R :: rcomb c1 a' c2 b'
  | _, _ => []
  end.
