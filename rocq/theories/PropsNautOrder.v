(** * C118: NAUTILUS and NAUTILUS 2, objectives listed in another order. *)
From Coq Require Import ZArith Reals Lra List Bool Lia Floats Permutation.
From Verif Require Import Num NumXR NumF64 Py Np Spec NpFacts XRFacts MAsf MNautilus SNautilus SRpmOrder POrder PRpmOrder SNautShift SNautOrder PNautOrder.
Import ListNotations.

(** Two objects whose problems, ideal, nadir and starting points list the same [k]
    objectives, the second in the order [p]; any history of corresponding answers (ranks,
    percentages or directions: one number for each objective): the vectors shown are
    rearranged, distances and decision vectors the same, the same answers are accepted, and
    a call returns if and only if the corresponding one does. *)
Theorem C118_order_partial :
  forall (p : list nat) k (p1 p2 : nt_problem XR) v eps (ideal nadir : list XR) s1 s2 qs,
  Permutation p (seq 0 k) -> arranged_nt_problem p k p1 p2 -> nt_wf k p1 v ideal nadir ->
  nt_parallel p k p1 p2 v eps ideal nadir s1 s2 qs ->
  (forall q1 q2, In (q1, q2) qs -> q2 = arranged_nt p q1) /\
  (forall q1 q2 d1 d2, In (q1, q2) qs -> arranged_nt_answer p k d1 d2 ->
     nt_validate (arranged_variant p v) (arranged p nadir) q2 d2 = nt_validate v nadir q1 d1) /\
  (forall q1 q2 resp1 resp2, In (q1, q2) qs ->
     both (fun d1 d2 => arranged_nt_answer p k d1 d2 /\ nt_validate v nadir q1 d1 = Ok tt) resp1 resp2 ->
     same_outcome (fun r1 r2 => r2 = option_map (arranged_nt p) r1)
       (snd (nt_iterate p1 v eps ideal nadir q1 resp1 s1))
       (snd (nt_iterate p2 (arranged_variant p v) eps (arranged p ideal) (arranged p nadir) q2 resp2 s2))).
Proof.
  intros p k p1 p2 v eps ideal nadir s1 s2 qs HP MP WF T.
  destruct (parallel_inv p k HP p1 p2 v eps ideal nadir MP WF s1 s2 qs T) as (-> & W & HQ). rewrite Forall_forall in HQ. split; [|split].
  - intros q1 q2 Hin. exact (proj1 (HQ _ Hin)).
  - intros q1 q2 d1 d2 Hin HA. destruct (HQ _ Hin) as [E RO]. cbn [fst snd] in E, RO. subst q2. apply (validate_arr p k HP p1 v ideal nadir WF); assumption.
  - intros q1 q2 resp1 resp2 Hin HB. destruct (HQ _ Hin) as [E RO]. cbn [fst snd] in E, RO. subst q2.
    destruct (iterate_arr p k HP p1 p2 v eps ideal nadir MP WF q1 resp1 resp2 s1 RO W HB) as (_ & _ & R).
    destruct (snd (nt_iterate p1 v eps ideal nadir q1 resp1 s1)) as [[r1|]|], (snd (nt_iterate p2 (arranged_variant p v) eps (arranged p ideal) (arranged p nadir) (arranged_nt p q1) resp2 (ms p s1))) as [[r2|]|];
      cbn [same_outcome option_map] in *; try contradiction; auto. f_equal. exact (proj1 R).
Qed.
Print Assumptions C118_order_partial.

(** Every answer with numbers for [k] objectives has a corresponding one ... *)
Theorem C118_answers :
  forall (p : list nat) k (d1 : nt_dict XR),
  (forall v, nd_info d1 = Some (PArr v) \/ nd_info d1 = Some (PList v) -> length v = k /\ Forall (fun x : XR => nisnan x = false) v) ->
  (forall l, nd_info d1 <> Some (PPairs l)) -> exists d2, arranged_nt_answer p k d1 d2.
Proof.
  intros p k [n b sh pr m i] HV HL. cbn [nd_info] in *. destruct i as [[w|w|l|]|].
  - destruct (HV w) as [A B]; [auto|]. exists (MkND n b sh pr m (Some (PArr (arranged p w)))). constructor; try reflexivity. cbn. constructor; assumption.
  - destruct (HV w) as [A B]; [auto|]. exists (MkND n b sh pr m (Some (PList (arranged p w)))). constructor; try reflexivity. cbn. constructor; assumption.
  - exfalso. apply (HL l). reflexivity.
  - exists (MkND n b sh pr m (Some POther)). constructor; try reflexivity. cbn. constructor.
  - exists (MkND n b sh pr m None). constructor; reflexivity.
Qed.
Print Assumptions C118_answers.

(** ... and every session has its counterpart. *)
Theorem C118_counterpart :
  forall (p : list nat) k (p1 p2 : nt_problem XR) v eps (ideal nadir : list XR) s1 s2 qs q1 q2 resp1 resp2 s1' q1',
  Permutation p (seq 0 k) -> arranged_nt_problem p k p1 p2 -> nt_wf k p1 v ideal nadir ->
  nt_parallel p k p1 p2 v eps ideal nadir s1 s2 qs -> In (q1, q2) qs ->
  both (fun d1 d2 => arranged_nt_answer p k d1 d2 /\ nt_validate v nadir q1 d1 = Ok tt) resp1 resp2 ->
  nt_iterate p1 v eps ideal nadir q1 resp1 s1 = (s1', Ok (Some q1')) ->
  exists s2', nt_parallel p k p1 p2 v eps ideal nadir s1' s2' ((q1', arranged_nt p q1') :: qs).
Proof.
  intros p k p1 p2 v eps ideal nadir s1 s2 qs q1 q2 resp1 resp2 s1' q1' HP MP WF T Hin HB E.
  destruct (C118_order_partial p k p1 p2 v eps ideal nadir s1 s2 qs HP MP WF T) as (_ & _ & HO). specialize (HO q1 q2 resp1 resp2 Hin HB).
  destruct (nt_iterate p2 (arranged_variant p v) eps (arranged p ideal) (arranged p nadir) q2 resp2 s2) as [s2' out2] eqn:E2. rewrite E in HO. cbn [snd] in HO.
  destruct out2 as [r2|e]; cbn [same_outcome option_map] in HO; [|contradiction]. subst r2. exists s2'.
  exact (nt_parallel_step p k p1 p2 v eps ideal nadir s1 s2 qs q1 q2 resp1 resp2 s1' s2' _ _ T Hin HB E E2).
Qed.
Print Assumptions C118_counterpart.

(** The hypothesis on the problems holds for the documented achievement function and the
    epsilon-constraint problems, if the optimizers only see values and do not care about the
    order of the constraints. *)
Theorem C118_documented_functions :
  forall (p : list nat) k rho solve csolve eval constr x0,
  Permutation p (seq 0 k) -> sees_values solve -> ignores_the_order csolve -> (forall x, length (eval x) = k) ->
  arranged_nt_problem p k (solved_by rho solve csolve eval constr x0) (solved_by rho solve csolve (fun x => arranged p (eval x)) constr x0).
Proof. exact solved_arr. Qed.
Print Assumptions C118_documented_functions.

(** Two objectives, exchanged; ranks 1 and 2; the minimizer stays at the reference point,
    the epsilon-constraint problems take the bound for the other objective and 0. *)
Definition o_p : list nat := [1; 0]%nat.
Definition o_ev (x : list XR) : list XR := match x with [a; b] => [a; b] | _ => xv [0; 0]%R end.
Definition o_ecm (i : nat) (e : list XR) : list XR := match i, e with O, [b] => [Fin 0%R; b] | _, [b] => [b; Fin 0%R] | _, _ => [] end.
Definition o_p1 : nt_problem XR := MkNP o_ev None (xv [0; 0]%R) (fun _ _ _ q _ => Ok q) (fun i e _ => Ok (o_ecm i e)).
Definition o_p2 : nt_problem XR :=
  MkNP (fun x => arranged o_p (o_ev x)) None (xv [0; 0]%R) (fun _ _ _ q _ => Ok (arranged o_p q)) (fun i e _ => Ok (o_ecm (1 - i) e)).
Definition o_i : list XR := xv [0; 0]%R.
Definition o_n : list XR := xv [5; 6]%R.
Definition o_d1 : nt_dict XR := MkND (Some (VInt 2)) None None None (Some (VInt 1)) (Some (PArr (xv [1; 2]%R))).
Definition o_d2 : nt_dict XR := MkND (Some (VInt 2)) None None None (Some (VInt 1)) (Some (PArr (xv [2; 1]%R))).
Example C118_hypotheses_met :
  Permutation o_p (seq 0 2) /\ arranged_nt_problem o_p 2 o_p1 o_p2 /\ nt_wf 2 o_p1 NV1 o_i o_n /\
  exists s1 s2 z lo hi e, nt_parallel o_p 2 o_p1 o_p2 NV1 (Fin 1%R : XR) o_i o_n s1 s2
    [(NReq z lo hi e, NReq (arranged o_p z) (arranged o_p lo) (arranged o_p hi) e); (NInit, NInit)].
Proof.
  assert (HP : Permutation o_p (seq 0 2)) by apply perm_swap.
  assert (MP : arranged_nt_problem o_p 2 o_p1 o_p2).
  { constructor; try reflexivity.
    - intros w n u q _ _ _ Hq. destruct q as [|a [|b [|]]]; try discriminate. reflexivity.
    - intros j i z E Hz. destruct z as [|a [|b [|]]]; try discriminate Hz. destruct j as [|[|j]]; [| |destruct j; discriminate E]; injection E as <-; reflexivity. }
  assert (WF : nt_wf 2 o_p1 NV1 o_i o_n).
  { split; [lia|]. repeat split; try reflexivity. intros x. destruct x as [|a [|b [|]]]; reflexivity. }
  split; [exact HP|]. split; [exact MP|]. split; [exact WF|].
  assert (V : nt_validate NV1 o_n NInit o_d1 = Ok tt).
  { assert (L : nltb (Fin 1%R : XR) (Fin 2%R) = true) by (apply xltb_fin; lra).
    assert (P : pymax (xv [1; 2]%R) = Ok (Fin 2%R : XR)) by (cbn [pymax xv map fold_left]; rewrite L; reflexivity).
    assert (G1 : nleb (nofZ 1 : XR) (Fin 2%R) = true) by (apply xleb_fin; cbn; lra).
    assert (G2 : nleb (Fin 2%R : XR) (nofZ (Z.of_nat 2)) = true) by (apply xleb_fin; cbn; lra).
    cbn [nt_validate o_d1 nd_n nd_back nd_prev nt_check_pref nd_method nd_info]. unfold nt1_check. cbn [py_eq Z.eqb Pos.eqb orb negb info_len xv map length Nat.ltb Nat.leb rbind o_n].
    change [Fin 1%R; Fin 2%R] with (xv [1; 2]%R). rewrite P. cbn [rbind]. rewrite G1, G2. reflexivity. }
  assert (F0 : Forall (fun x : XR => nisnan x = false) (xv [1; 2]%R)) by (repeat constructor; apply xisnan_fin).
  assert (A : arranged_nt_answer o_p 2 o_d1 o_d2).
  { constructor; try reflexivity. exact (an_arr o_p 2 (xv [1; 2]%R) eq_refl F0). }
  pose proof (nt_parallel_init o_p 2 o_p1 o_p2 NV1 (Fin 1%R : XR) o_i o_n) as T0.
  eassert (E1 : nt_iterate o_p1 NV1 (Fin 1%R : XR) o_i o_n NInit (Some o_d1) nt_init = (_, Ok (Some (NReq _ _ _ _)))) by reflexivity.
  destruct (C118_counterpart _ _ _ _ _ _ _ _ _ _ _ NInit NInit (Some o_d1) (Some o_d2) _ _ HP MP WF T0 (or_introl eq_refl) (conj A V) E1) as (s2 & T1).
  eexists. exists s2. eexists. eexists. eexists. eexists. exact T1.
Qed.

(** Without these conditions the order matters.  First, a rank that is not a number:
    accepted behind another rank, refused in front of it. *)
Definition on_nadir : list F64 := [5; 6]%float.
Definition on_d (v : list F64) : nt_dict F64 := MkND (Some (VInt 2)) None None None (Some (VInt 1)) (Some (PArr v)).
Theorem C118_nan_rank_refuted :
  nt_validate NV1 on_nadir NInit (on_d [1; nan]%float) = Ok tt /\ nt_validate NV1 (rev on_nadir) NInit (on_d [nan; 1]%float) = Raise MethodExn.
Proof. split; vm_compute; reflexivity. Qed.
Print Assumptions C118_nan_rank_refuted.

(** Second, pairwise ratios in NAUTILUS 2.  The directions are scaled so that the first
    objective has 1, and the augmentation term of the achievement function is not scaled
    with them: the same ratio, "objective a is to improve by 2 when b improves by 1", leads
    to another solution when the objectives are exchanged. *)
Definition os_a : list F64 := [0.5; -1]%float.
Definition os_b : list F64 := [0x1.ffff4p-2; -0x1.8p-18]%float.
Definition os_ideal : list F64 := [-1; -1]%float.
Definition os_nadir : list F64 := [1; 1]%float.
Definition os_rho : F64 := 0x1p-17%float.
Definition os_min (c : list (list F64)) (w n u q x0 : list F64) : res (list F64) := do i <- rp_disc os_rho w n u c q; at_ c i.
(** The best value of objective i among the candidates that satisfy the bounds. *)
Definition os_ecm (c : list (list F64)) (i : nat) (e x0 : list F64) : res (list F64) :=
  let ok := filter (fun f => forallb (fun x => x) (zipw nleb (drop_at i f) e)) c in
  do vals <- rseq (map (fun f => at_ f i) ok); do j <- npnanargmin vals; at_ ok j.
Definition os_p (c : list (list F64)) : nt_problem F64 := MkNP (fun x => x) None os_nadir (os_min c) (os_ecm c).
Definition os_d (i j : Z) : nt_dict F64 := MkND (Some (VInt 1)) None None None (Some (VInt 3)) (Some (PPairs [([VInt i; VInt j], VInt 2)])).
Definition os_z (r : res (option (nt_request F64))) : option (list F64) := match r with Ok (Some (NReq z _ _ _)) => Some z | _ => None end.
Definition os_run (c : list (list F64)) (i j : Z) : option (list F64) :=
  os_z (snd (nt_iterate (os_p c) (NV2 os_nadir 10) 0%float os_ideal os_nadir NInit (Some (os_d i j)) nt_init)).
Definition os_z1 : option (list F64) := Some os_a.
Definition os_z2 : option (list F64) := Some (rev os_b).
Theorem C118_pairwise_ratios_refuted :
  nt_validate (NV2 os_nadir 10) os_nadir NInit (os_d 1 2) = Ok tt /\ nt_validate (NV2 os_nadir 10) os_nadir NInit (os_d 2 1) = Ok tt /\
  os_run [os_a; os_b] 1 2 = Some os_a /\ os_run [rev os_a; rev os_b] 2 1 = Some (rev os_b).
Proof. split; [vm_compute; reflexivity|]. split; [vm_compute; reflexivity|]. split; [vm_cast_no_check (eq_refl os_z1)|vm_cast_no_check (eq_refl os_z2)]. Qed.
Print Assumptions C118_pairwise_ratios_refuted.
