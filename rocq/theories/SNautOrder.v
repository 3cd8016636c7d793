(** * NAUTILUS and NAUTILUS 2: two objects whose problems list the same objectives in
    another order (C118).  [arranged], [both], [same_outcome]: SRpmOrder. *)
From Coq Require Import ZArith List Bool Reals Permutation.
From Verif Require Import Num NumXR Py Np Spec MNautilus SNautilus SRpmOrder.
Import ListNotations.

(** The objective vectors of [p2] are those of [p1] rearranged; the optimizers find the same
    decision vector for corresponding reference points, weights and bounds: objective j of
    [p2] is objective p_j of [p1]. *)
Record arranged_nt_problem (p : list nat) (k : nat) (p1 p2 : nt_problem XR) : Prop := MkAP {
  ap_eval : forall x, np_eval p2 x = arranged p (np_eval p1 x);
  ap_x0 : np_x0 p2 = np_x0 p1;
  ap_min : forall w n u q, length w = k -> length n = k -> length u = k -> length q = k ->
    np_min p2 (arranged p w) (arranged p n) (arranged p u) (arranged p q) (np_x0 p2) = np_min p1 w n u q (np_x0 p1);
  ap_ecm : forall j i z, nth_error p j = Some i -> length z = k ->
    np_ecm p2 j (drop_at j (arranged p z)) (np_x0 p2) = np_ecm p1 i (drop_at i z) (np_x0 p1) }.

Definition arranged_variant (p : list nat) (v : nt_variant XR) : nt_variant XR :=
  match v with NV1 => NV1 | NV2 s fuel => NV2 (arranged p s) fuel end.
(** Requests: the vectors of objective values are rearranged. *)
Definition arranged_nt (p : list nat) (q : nt_request XR) : nt_request XR :=
  match q with
  | NInit => NInit
  | NReq z lo hi d => NReq (arranged p z) (arranged p lo) (arranged p hi) d
  | NStop x f => NStop x (option_map (arranged p) f)
  end.

(** Answers: the ranks, percentages or directions, one number for each objective, are
    rearranged.  Pairwise ratios (NAUTILUS 2) are not covered: they are relative to the
    first objective. *)
Inductive arranged_info (p : list nat) (k : nat) : nt_info XR -> nt_info XR -> Prop :=
| an_arr v : length v = k -> Forall (fun x : XR => nisnan x = false) v -> arranged_info p k (PArr v) (PArr (arranged p v))
| an_list v : length v = k -> Forall (fun x : XR => nisnan x = false) v -> arranged_info p k (PList v) (PList (arranged p v))
| an_other : arranged_info p k POther POther.
Record arranged_nt_answer (p : list nat) (k : nat) (d1 d2 : nt_dict XR) : Prop := MkAA {
  aa_n : nd_n d2 = nd_n d1; aa_back : nd_back d2 = nd_back d1; aa_short : nd_short d2 = nd_short d1;
  aa_prev : nd_prev d2 = nd_prev d1; aa_method : nd_method d2 = nd_method d1;
  aa_info : both (arranged_info p k) (nd_info d1) (nd_info d2) }.

(** Any history of two objects in which corresponding requests get corresponding answers. *)
Inductive nt_parallel (p : list nat) (k : nat) (p1 p2 : nt_problem XR) (v : nt_variant XR) (eps : XR) (ideal nadir : list XR)
  : nt_state XR -> nt_state XR -> list (nt_request XR * nt_request XR) -> Prop :=
| nt_parallel_init : nt_parallel p k p1 p2 v eps ideal nadir nt_init nt_init [(NInit, NInit)]
| nt_parallel_step s1 s2 qs q1 q2 resp1 resp2 s1' s2' out1 out2 :
    nt_parallel p k p1 p2 v eps ideal nadir s1 s2 qs -> In (q1, q2) qs ->
    both (fun d1 d2 => arranged_nt_answer p k d1 d2 /\ nt_validate v nadir q1 d1 = Ok tt) resp1 resp2 ->
    nt_iterate p1 v eps ideal nadir q1 resp1 s1 = (s1', out1) ->
    nt_iterate p2 (arranged_variant p v) eps (arranged p ideal) (arranged p nadir) q2 resp2 s2 = (s2', out2) ->
    nt_parallel p k p1 p2 v eps ideal nadir s1' s2'
      (match out1, out2 with Ok (Some r1), Ok (Some r2) => (r1, r2) :: qs | _, _ => qs end).

(** An optimizer under constraints that only sees the values of the function it minimizes
    and does not care about the order of the constraints. *)
Definition ignores_the_order (csolve : (list XR -> res XR) -> (list XR -> res (list XR)) -> list XR -> res (list XR)) : Prop :=
  forall f g h h' x0, (forall x, g x = f x) -> (forall x, same_outcome (@Permutation XR) (h x) (h' x)) -> csolve g h' x0 = csolve f h x0.
