(** * The numpy operations used by the code, on lists.

    A 1-D array is a list of numbers and a 2-D array a list of rows of equal
    length.  Reductions are sequential left folds (numpy uses pairwise summation
    from 8 elements on and BLAS for dot products, which only changes rounding). *)
From Coq Require Import ZArith List Bool Lia.
From Verif Require Import Num Py.
Import ListNotations.

Fixpoint zipw {A B C} (f : A -> B -> C) (a : list A) (b : list B) : list C :=
  match a, b with
  | x :: a', y :: b' => f x y :: zipw f a' b'
  | _, _ => []
  end.

(** Broadcasting a binary operation over two 1-D arrays: equal lengths, or one
    of them of length 1; otherwise ValueError. *)
Definition bcast2 {A B C} (f : A -> B -> C) (a : list A) (b : list B) : res (list C) :=
  if Nat.eqb (length a) (length b) then Ok (zipw f a b)
  else match a, b with
       | [x], _ => Ok (map (f x) b)
       | _, [y] => Ok (map (fun x => f x y) a)
       | _, _ => Raise ValueErr
       end.

Fixpoint argwhere_from (i : nat) (l : list bool) : list nat :=
  match l with
  | [] => []
  | true :: l' => i :: argwhere_from (S i) l'
  | false :: l' => argwhere_from (S i) l'
  end.
(** Indices of the True entries, increasing. *)
Definition argwhere (l : list bool) : list nat := argwhere_from 0 l.

(** An integer index array: [np.argwhere(m).squeeze()] is 0-d exactly when
    there is one True entry. *)
Inductive idxarr : Type := IScalar (i : nat) | IList (l : list nat).
Definition squeeze_idx (l : list nat) : idxarr :=
  match l with [i] => IScalar i | _ => IList l end.
(** np.atleast_1d *)
Definition idx_list (a : idxarr) : list nat :=
  match a with IScalar i => [i] | IList l => l end.

(** [m[l]] with an integer list index on the first axis. *)
Definition take {A} (m : list A) (l : list nat) : res (list A) :=
  rseq (map (at_ m) l).

(** [m[mask]] with a boolean mask. *)
Fixpoint select {A} (mask : list bool) (m : list A) : list A :=
  match mask, m with
  | b :: mask', x :: m' => if b then x :: select mask' m' else select mask' m'
  | _, _ => []
  end.

Section Np.
  Context {N : NumOps}.
  Notation vec := (list N).

  Definition vadd (a b : vec) : vec := zipw nadd a b.
  Definition vsub (a b : vec) : vec := zipw nsub a b.
  Definition vdiv (a b : vec) : vec := zipw ndiv a b.
  Definition vscale (c : N) (a : vec) : vec := map (nmul c) a.

  (** np.sum: from left to right.  numpy adds fewer than 8 numbers in this order; for more
      it uses partial sums, so that the last bits may differ in doubles (not over [XR]). *)
  Definition vsum (a : vec) : N := fold_left nadd a (nofZ 0).
  (** np.linalg.norm of a 1-D array (and of each row with axis=1); the same holds for its
      sum, which is a BLAS dot product when no axis is given. *)
  Definition vnorm (a : vec) : N := nsqrt (vsum (map (fun x => nmul x x) a)).

  (** np.minimum / np.maximum: NaN propagates. *)
  Definition nminimum (a b : N) : N := if nleb a b || nisnan a then a else b.
  Definition nmaximum (a b : N) : N := if nleb b a || nisnan a then a else b.

  (** np.min / np.max of a 1-D array: ValueError on an empty one. *)
  Definition npmin (a : vec) : res N :=
    match a with [] => Raise ValueErr | x :: a' => Ok (fold_left nminimum a' x) end.
  Definition npmax (a : vec) : res N :=
    match a with [] => Raise ValueErr | x :: a' => Ok (fold_left nmaximum a' x) end.

  (** np.nanmin / np.nanmax: NaNs are ignored; an all-NaN array gives NaN (with
      a RuntimeWarning), an empty one a ValueError. *)
  Definition drop_nan (a : vec) : vec := filter (fun x => negb (nisnan x)) a.
  Definition npnanmin (a : vec) : res N :=
    match a with
    | [] => Raise ValueErr
    | _ => match npmin (drop_nan a) with Ok x => Ok x | Raise _ => Ok nnan end
    end.
  Definition npnanmax (a : vec) : res N :=
    match a with
    | [] => Raise ValueErr
    | _ => match npmax (drop_nan a) with Ok x => Ok x | Raise _ => Ok nnan end
    end.

  (** np.argmin: first index of the minimum; the first NaN wins. *)
  Fixpoint argmin_from (best : N) (bi i : nat) (a : vec) : nat :=
    match a with
    | [] => bi
    | x :: a' =>
        if negb (nisnan best) && (nltb x best || nisnan x)
        then argmin_from x i (S i) a'
        else argmin_from best bi (S i) a'
    end.
  Definition npargmin (a : vec) : res nat :=
    match a with [] => Raise ValueErr | x :: a' => Ok (argmin_from x 0 1 a') end.

  (** np.nanargmin: first index of the minimum of the non-NaN entries;
      ValueError when there is none. *)
  Fixpoint nanargmin_from (best : option (N * nat)) (i : nat) (a : vec) : option (N * nat) :=
    match a with
    | [] => best
    | x :: a' =>
        nanargmin_from
          (if nisnan x then best
           else match best with
                | None => Some (x, i)
                | Some (b, _) => if nltb x b then Some (x, i) else best
                end) (S i) a'
    end.
  Definition npnanargmin (a : vec) : res nat :=
    match nanargmin_from None 0 a with Some (_, i) => Ok i | None => Raise ValueErr end.

  (** [np.all(a <= b)], [np.all(a >= b)] over one row of equal length. *)
  Definition all_le (a b : vec) : bool := forallb (fun x => x) (zipw nleb a b).
  Definition all_ge (a b : vec) : bool := forallb (fun x => x) (zipw (fun x y => nleb y x) a b).
  (** [np.any(a > b)] over one row of equal length. *)
  Definition any_gt (a b : vec) : bool := existsb (fun x => x) (zipw (fun x y => nltb y x) a b).


  (** [v[~mask]] where [mask] is True only at [r]. *)
  Fixpoint drop_at {A} (r : nat) (v : list A) : list A :=
    match v, r with
    | [], _ => []
    | _ :: v', O => v'
    | x :: v', S r' => x :: drop_at r' v'
    end.
End Np.
