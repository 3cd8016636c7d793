(** * Reference Point Method: two objects whose problems list the same objectives in
    another order (C117). *)
From Coq Require Import ZArith List Bool Reals Permutation.
From Verif Require Import Num NumXR Py Np Spec MAsf MRpm SRpm.
Import ListNotations.

(** The entries of [l] at the positions [p]: position j of the result is position p_j of
    the list. *)
Definition arranged {A} (p : list nat) (l : list A) : list A :=
  flat_map (fun i => match nth_error l i with Some x => [x] | None => [] end) p.

(** Same decision vectors, objective vectors rearranged. *)
Definition rp_arranged_problem (p : list nat) (k : nat) (p1 p2 : rp_problem XR) : Prop :=
  match p1, p2 with
  | RMO ev1 _ x1 min1, RMO ev2 _ x2 min2 =>
      x2 = x1 /\ (forall x, length (ev1 x) = k /\ ev2 x = arranged p (ev1 x)) /\
      forall w n u q x0, length w = k -> length n = k -> length u = k -> length q = k ->
        min2 (arranged p w) (arranged p n) (arranged p u) (arranged p q) x0 = min1 w n u q x0
  | RDisc o1 d1, RDisc o2 d2 => is_matrix k o1 /\ o2 = map (arranged p) o1 /\ d2 = d1
  | _, _ => False
  end.

(** Requests: the objective vectors are rearranged; so is the list of additional solutions,
    one of which belongs to each objective. *)
Definition arranged_req (p : list nat) (r : rp_request XR) : rp_request XR :=
  match r with
  | RInit => RInit
  | RReq f fs => RReq (arranged p f) (arranged p (map (arranged p) fs))
  | RStop x f => RStop x (option_map (arranged p) f)
  end.

(** Answers: the reference point is rearranged; the number 0 of the current solution stays,
    the number 1 + a of an additional solution becomes 1 plus its new position. *)
Inductive arranged_index (p : list nat) (k : nat) : pyval XR -> pyval XR -> Prop :=
| ai_same i : (forall z, as_int i = Some z -> (z <= 0 \/ Z.of_nat k < z)%Z) -> arranged_index p k i i
| ai_moved i a b : as_int i = Some (Z.of_nat (S a)) -> nth_error p b = Some a -> arranged_index p k i (VInt (Z.of_nat (S b))).
Inductive arranged_ref (p : list nat) (k : nat) : rp_arr XR -> rp_arr XR -> Prop :=
| ar_arr q : length q = k -> arranged_ref p k (RArr q) (RArr (arranged p q))
| ar_nd : arranged_ref p k RArrND RArrND
| ar_no : arranged_ref p k RNoArr RNoArr.
Definition both {A B} (P : A -> B -> Prop) (a : option A) (b : option B) : Prop :=
  match a, b with Some x, Some y => P x y | None, None => True | _, _ => False end.
Definition arranged_answer (p : list nat) (k : nat) (d1 d2 : rp_dict XR) : Prop :=
  rd_sat d2 = rd_sat d1 /\ both (arranged_ref p k) (rd_ref d1) (rd_ref d2) /\ both (arranged_index p k) (rd_idx d1) (rd_idx d2).

(** Any history of two objects in which corresponding requests get corresponding answers. *)
Inductive rp_parallel (p : list nat) (k : nat) (p1 p2 : rp_problem XR) (rho eps : XR) (ideal nadir : list XR)
  : rp_state XR -> rp_state XR -> list (rp_request XR * rp_request XR) -> Prop :=
| rp_parallel_init : rp_parallel p k p1 p2 rho eps ideal nadir rp_init rp_init [(RInit, RInit)]
| rp_parallel_step s1 s2 qs q1 q2 resp1 resp2 s1' s2' out1 out2 :
    rp_parallel p k p1 p2 rho eps ideal nadir s1 s2 qs -> In (q1, q2) qs ->
    both (fun d1 d2 => arranged_answer p k d1 d2 /\ rp_validate ideal nadir q1 d1 = Ok tt) resp1 resp2 ->
    rp_iterate p1 rho eps ideal nadir q1 resp1 s1 = (s1', out1) ->
    rp_iterate p2 rho eps (arranged p ideal) (arranged p nadir) q2 resp2 s2 = (s2', out2) ->
    rp_parallel p k p1 p2 rho eps ideal nadir s1' s2' (match out1, out2 with Ok r1, Ok r2 => (r1, r2) :: qs | _, _ => qs end).

(** Both calls return corresponding requests, or both raise. *)
Definition same_outcome {A B} (P : A -> B -> Prop) (r1 : res A) (r2 : res B) : Prop :=
  match r1, r2 with Ok a, Ok b => P a b | Raise _, Raise _ => True | _, _ => False end.
