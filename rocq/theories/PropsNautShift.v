(** * C113: NAUTILUS and NAUTILUS 2, constants added to the objectives.  C114: the same
    for the reference point method. *)
From Coq Require Import ZArith Reals Lra List Bool Lia Floats.
From Verif Require Import Num NumXR NumF64 Py Np Spec NpFacts XRFacts SNavShift PNavShift MAsf MNautilus SNautilus SNautShift PNautilus PNautilus8 PNautilus6 PNautShift PropsNautilus MRpm SRpm.
Import ListNotations.

(** ** C113 *)
(** Two objects whose problems, ideal, nadir and starting points differ by the constants
    [t], any history with the same answers: every vector of objective values shown differs
    by [t], the distances, decision vectors, accepted answers and exceptions are the same. *)
Theorem C113_constants :
  forall (t : list R) (p1 p2 : nt_problem XR) v eps ideal nadir s1 s2 qs,
  moved_problem t eps ideal nadir p1 p2 -> nt_wf (length t) p1 v ideal nadir ->
  nt_shifted t p1 p2 v eps ideal nadir s1 s2 qs ->
  (forall q1 q2, In (q1, q2) qs -> q2 = moved_nt t q1) /\
  (forall q1 q2 d, In (q1, q2) qs -> nt_validate (moved_variant t v) (moved t nadir) q2 d = nt_validate v nadir q1 d) /\
  (forall q1 q2 resp, In (q1, q2) qs ->
     snd (nt_iterate p2 (moved_variant t v) (Fin eps : XR) (moved t ideal) (moved t nadir) q2 resp s2) =
     rmap (option_map (moved_nt t)) (snd (nt_iterate p1 v (Fin eps : XR) ideal nadir q1 resp s1))).
Proof.
  intros t p1 p2 v eps ideal nadir s1 s2 qs MP WF T.
  pose proof (shifted_inv t p1 p2 v eps ideal nadir MP WF _ _ _ T) as (_ & _ & HQ). rewrite Forall_forall in HQ. split; [|split].
  - intros q1 q2 Hin. exact (proj1 (HQ _ Hin)).
  - intros q1 q2 d Hin. exact (validate_moved t p1 v ideal nadir WF q1 q2 d (HQ _ Hin)).
  - intros q1 q2 resp Hin. exact (shifted_outcome t p1 p2 v eps ideal nadir MP WF s1 s2 qs q1 q2 resp T Hin).
Qed.
Print Assumptions C113_constants.

(** The hypothesis on the problems holds for the documented achievement function and the
    epsilon-constraint problems, if the optimizers only see values and find the same point
    when a constant is added to what they minimize. *)
Theorem C113_documented_functions :
  forall (t : list R) rho eps solve csolve eval constr x0 ideal nadir,
  sees_values solve -> ignores_a_constant csolve ->
  length ideal = length t -> length nadir = length t -> (forall x, length (eval x) = length t) ->
  moved_problem t eps ideal nadir (solved_by rho solve csolve eval constr x0) (solved_by rho solve csolve (fun x => moved t (eval x)) constr x0).
Proof. exact solved_moved. Qed.
Print Assumptions C113_documented_functions.

(** Every session of one object has its counterpart. *)
Theorem C113_counterpart :
  forall (t : list R) (p1 p2 : nt_problem XR) v eps ideal nadir A s1 qs1,
  moved_problem t eps ideal nadir p1 p2 -> nt_wf (length t) p1 v ideal nadir ->
  nt_path p1 v (Fin eps : XR) ideal nadir A s1 qs1 ->
  exists s2, nt_shifted t p1 p2 v eps ideal nadir s1 s2 (map (fun q => (q, moved_nt t q)) qs1).
Proof.
  intros t p1 p2 v eps ideal nadir A s1 qs1 MP WF H. unfold nt_path in H. remember tt as h eqn:Eh. clear Eh.
  induction H as [|s q qs h0 d s' q' HP (s2 & IH) HV HA HI]; [exists nt_init; constructor|].
  pose proof (shifted_outcome t p1 p2 v eps ideal nadir MP WF s s2 _ q (moved_nt t q) (Some d) IH (or_introl eq_refl)) as HO.
  destruct (nt_iterate p2 (moved_variant t v) (Fin eps : XR) (moved t ideal) (moved t nadir) (moved_nt t q) (Some d) s2) as [s2' out2] eqn:E2.
  rewrite HI in HO. cbn [snd rmap option_map] in HO. subst out2. exists s2'.
  assert (HV' : forall d0, Some d = Some d0 -> nt_validate v nadir q d0 = Ok tt) by (intros d0 [= <-]; exact HV).
  exact (nt_shifted_step t p1 p2 v eps ideal nadir s s2 _ q (moved_nt t q) (Some d) s' (Ok (Some q')) s2' (Ok (Some (moved_nt t q'))) IH (or_introl eq_refl) HV' HI E2).
Qed.
Print Assumptions C113_counterpart.

(** Optimizers that compare two candidates, and a problem with two objectives. *)
Definition nc0 : list XR := xv [0%R].
Definition nc1 : list XR := xv [1%R].
Definition n_solve (f : list XR -> res XR) (_ : list XR) : res (list XR) :=
  match f nc0, f nc1 with Ok a, Ok b => if nleb b a then Ok nc1 else Ok nc0 | _, _ => Ok nc0 end.
Definition n_meets (h : list XR -> res (list XR)) (c : list XR) : bool :=
  match h c with Ok s => forallb (nleb (Fin 0 : XR)) s | Raise _ => false end.
Definition n_csolve (f : list XR -> res XR) (h : list XR -> res (list XR)) (_ : list XR) : res (list XR) :=
  match f nc0, f nc1 with
  | Ok a, Ok b => if n_meets h nc1 && (negb (n_meets h nc0) || nleb b a) then Ok nc1 else Ok nc0
  | _, _ => Ok nc0
  end.
Definition n_eval (x : list XR) : list XR := let a := hd (Fin 0 : XR) x in [a; nsub (Fin 1 : XR) a].
Definition nP : nt_problem XR := solved_by (Fin 1 : XR) n_solve n_csolve n_eval None [].
Definition nt5 : list R := [5; -7]%R.
Definition nP5 : nt_problem XR := solved_by (Fin 1 : XR) n_solve n_csolve (fun x => moved nt5 (n_eval x)) None [].
Lemma n_sees : sees_values n_solve.
Proof. intros f g x0 H. unfold n_solve. rewrite !H. reflexivity. Qed.
Lemma n_ignores : ignores_a_constant n_csolve.
Proof.
  intros c f g h h' x0 H1 H2. unfold n_csolve, n_meets. rewrite !H1, !H2. destruct (f nc0) as [a|]; [|reflexivity]. destruct (f nc1) as [b|]; [|reflexivity].
  cbn [rmap]. rewrite up_leb. reflexivity.
Qed.
Lemma n_total : nt_total nP.
Proof.
  split; intros; cbn [nP solved_by np_min np_ecm]; unfold n_solve, n_csolve;
    repeat match goal with |- context [match ?e with Ok _ => _ | Raise _ => _ end] => destruct e end;
    repeat match goal with |- context [if ?e then _ else _] => destruct e end; eauto.
Qed.
Lemma n_wf : nt_wf 2 nP NV1 cI (xv cN).
Proof. repeat split; auto. Qed.
Lemma n_session : exists s q1 q2, nt_path nP NV1 (Fin 1 : XR) cI (xv cN) (same_answers 3) s [q2; q1; NInit].
Proof.
  destruct (progress nP NV1 (Fin 1 : XR) 2 cI (xv cN) n_wf n_total nt_init NInit [] (cA 3)) as (s' & q' & E).
  { apply nt_run_start. } { apply c_valid; lia. } { exact Logic.I. } { cbn [complete]. unfold usable. cbn [cA nd_method nd_info]. eexists _, _, _. repeat split; reflexivity. }
  assert (HP : nt_path nP NV1 (Fin 1 : XR) cI (xv cN) (same_answers 3) s' [q'; NInit]).
  { unfold nt_path. change tt with ((fun _ _ _ _ => tt) tt (@NInit XR) (cA 3) q'). eapply nt_run_step; [apply nt_run_start|apply c_valid; lia| |exact E].
    split; [intros _; exists (VInt 3); split; reflexivity|congruence]. }
  assert (HP' : nt_path nP NV1 (Fin 1 : XR) cI (xv cN) (any_answers NV1) s' [q'; NInit]).
  { refine (run_weaken _ _ _ _ _ _ _ _ _ _ _ _ _ HP). intros; exact Logic.I. }
  assert (Hq : q' <> NInit) by (apply (run_not_init _ _ _ _ _ _ _ _ _ _ _ _ HP); discriminate).
  assert (HV : nt_validate NV1 (xv cN) q' cK = Ok tt) by (destruct q'; [congruence|reflexivity..]).
  assert (HK : keeps cK) by (unfold keeps, says, cK; cbn; repeat split; eauto).
  destruct (progress nP NV1 (Fin 1 : XR) 2 cI (xv cN) n_wf n_total s' q' [NInit] cK HP' HV Logic.I) as (s2 & q2 & E2).
  { destruct q'; cbn [complete]; auto; [congruence|]. split; [intros (v & E1 & T); injection E1 as <-; discriminate|intros (v & E1 & T); injection E1 as <-; discriminate]. }
  exists s2, q', q2. unfold nt_path. change tt with ((fun _ _ _ _ => tt) tt q' cK q2). eapply nt_run_step; [exact HP|exact HV| |exact E2]. split; [contradiction|auto].
Qed.
Example C113_hypotheses_met : exists s1 s2 q1 q2,
  moved_problem nt5 1 cI (xv cN) nP nP5 /\ nt_wf 2 nP NV1 cI (xv cN) /\ np_eval nP5 nc1 <> np_eval nP nc1 /\
  nt_shifted nt5 nP nP5 NV1 1 cI (xv cN) s1 s2 [(q2, moved_nt nt5 q2); (q1, moved_nt nt5 q1); (NInit, NInit)].
Proof.
  destruct n_session as (s & q1 & q2 & HP).
  assert (MP : moved_problem nt5 1 cI (xv cN) nP nP5) by (apply C113_documented_functions; auto using n_sees, n_ignores).
  destruct (C113_counterpart nt5 nP nP5 NV1 1 cI (xv cN) _ s _ MP n_wf HP) as (s2 & HT). exists s, s2, q1, q2.
  split; [exact MP|]. split; [exact n_wf|]. split; [|exact HT]. cbn. intros H. injection H as H1 _. lra.
Qed.

(** ** C114: the reference point method *)
(** The same answers are accepted. *)
Theorem C114_accepted :
  forall (t : list R) (ideal nadir f : list XR) fs d d', length ideal = length t -> length nadir = length t ->
  rd_sat d' = rd_sat d -> rd_idx d' = rd_idx d ->
  (rd_ref d = None /\ rd_ref d' = None \/
   (exists q, length q = length t /\ rd_ref d = Some (RArr q) /\ rd_ref d' = Some (RArr (moved t q))) \/
   (exists a, (a = RArrND \/ a = RNoArr) /\ rd_ref d = Some a /\ rd_ref d' = Some a)) ->
  rp_validate (moved t ideal) (moved t nadir) RInit d' = rp_validate ideal nadir RInit d /\
  rp_validate (moved t ideal) (moved t nadir) (RReq (moved t f) (map (moved t) fs)) d' = rp_validate ideal nadir (RReq f fs) d.
Proof.
  intros t ideal nadir f fs d d' LI LN E1 E2 HR.
  assert (V : match rd_ref d' with None => Raise MethodExn | Some a => rp_validate_ref a (moved t ideal) (moved t nadir) end =
              match rd_ref d with None => Raise MethodExn | Some a => rp_validate_ref a ideal nadir end).
  { destruct HR as [[-> ->]|[(q & Lq & -> & ->)|(a & Ha & -> & ->)]]; [reflexivity| |destruct Ha; subst; reflexivity].
    cbn [rp_validate_ref]. rewrite !moved_length, (moved_zipw nltb t) by (auto using up_ltb). reflexivity. }
  split; cbn [rp_validate].
  - exact V.
  - unfold rp_satisfied. rewrite E1, E2, V, moved_length. reflexivity.
Qed.
Print Assumptions C114_accepted.

(** Refuted: data (1,1), (2,2), ideal (0,0), nadir (3,3), reference point (1,1): the second
    row is shown.  With 4 subtracted from everything the first row is shown: the weights
    are the reference point divided by the ranges, so they depend on the origin. *)
Definition sO1 : list (list F64) := [[1; 1]; [2; 2]]%float.
Definition sO2 : list (list F64) := [[-3; -3]; [-2; -2]]%float.
Definition sD : list (list F64) := [[10]; [20]]%float.
Definition s_rho : F64 := 0x1.a36e2eb1c432dp-14%float. (* 0.0001 *)
Definition s_eps : F64 := 0x1.0c6f7a0b5ed8dp-20%float. (* 1e-6 *)
Definition s_go (a b : float) : rp_dict F64 := MkRD (Some (RArr ([a; b] : list F64))) None None.
Definition s_pt (a b : float) : list F64 := [a; b].
Definition s_run1 := rp_iterate (RDisc sO1 sD) s_rho s_eps (s_pt 0 0) (s_pt 3 3) RInit (Some (s_go 1 1)) rp_init.
Definition s_run2 := rp_iterate (RDisc sO2 sD) s_rho s_eps (s_pt (-4) (-4)) (s_pt (-1) (-1)) RInit (Some (s_go (-3) (-3))) rp_init.
Theorem C114_constants_refuted :
  rp_validate (s_pt 0 0) (s_pt 3 3) RInit (s_go 1 1) = Ok tt /\ rp_validate (s_pt (-4) (-4)) (s_pt (-1) (-1)) RInit (s_go (-3) (-3)) = Ok tt /\
  (exists s fs, rp_iterate (RDisc sO1 sD) s_rho s_eps (s_pt 0 0) (s_pt 3 3) RInit (Some (s_go 1 1)) rp_init = (s, Ok (RReq (s_pt 2 2) fs))) /\
  (exists s fs, rp_iterate (RDisc sO2 sD) s_rho s_eps (s_pt (-4) (-4)) (s_pt (-1) (-1)) RInit (Some (s_go (-3) (-3))) rp_init = (s, Ok (RReq (s_pt (-3) (-3)) fs))).
Proof.
  split; [vm_compute; reflexivity|]. split; [vm_compute; reflexivity|]. split.
  - exists (fst s_run1), [s_pt 2 2; s_pt 2 2]. vm_cast_no_check (eq_refl (fst s_run1, Ok (RReq (s_pt 2 2) [s_pt 2 2; s_pt 2 2]))).
  - exists (fst s_run2), [s_pt (-3) (-3); s_pt (-3) (-3)]. vm_cast_no_check (eq_refl (fst s_run2, Ok (RReq (s_pt (-3) (-3)) [s_pt (-3) (-3); s_pt (-3) (-3)]))).
Qed.
Print Assumptions C114_constants_refuted.
