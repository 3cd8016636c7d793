(** * NAUTILUS: when a step back is possible (C68), which failing calls can be
    repeated (C70). *)
From Coq Require Import ZArith List Bool Lia Floats.
From Verif Require Import Num NumF64 Py Np Spec NpFacts Hoare PRpm MNautilus SNautilus PNautilus PNautilus2 PNautilus3 PNautilus4 PNautilus5 PNautilus10 PropsNautilus.
Import ListNotations.

(** ** C68, the other half: a step back is possible from every other request *)
(** A session in which the first answer asks for [n] iterations and the number is not
    changed later; [st] are the points of the steps taken (the last one first, the
    starting point at the end), so [length st - 1] steps have been taken.  As long as
    fewer than [n] have been taken, a step back is possible: a short one goes to the
    middle between the point shown and the one before it, a full one with new
    preferences goes from the point before towards the solution the optimizer finds
    for them from there. *)
Theorem C68_step_back_possible_partial :
  forall (N : NumOps) (p : nt_problem N) v eps k ideal nadir n s z lo up e qs st d,
  nt_wf k p v ideal nadir -> nt_total p ->
  nt_trail p v eps ideal nadir (asks_once n) s (NReq z lo up e :: qs) st -> (Z.of_nat (length st) <= n)%Z ->
  nt_validate v nadir (NReq z lo up e) d = Ok tt -> nd_n d = None -> says (nd_back d) true ->
  exists z0 rest, st = z :: z0 :: rest /\
  (says (nd_short d) true ->
     exists s' z' lo' e', nt_iterate p v eps ideal nadir (NReq z lo up e) (Some d) s = (s', Ok (Some (NReq z' lo' z' e'))) /\
       bcast2 nadd (vscale (ndiv (nofZ 1) (nofZ 2)) z) (vscale (ndiv (nofZ 1) (nofZ 2)) z0) = Ok z') /\
  (says (nd_short d) false -> says (nd_prev d) false ->
   forall m i w, nd_method d = Some m -> nd_info d = Some i -> nt_weights v m i nadir (nt_utopian ideal eps) = Ok w ->
     exists s' x z' lo' e', nt_iterate p v eps ideal nadir (NReq z lo up e) (Some d) s = (s', Ok (Some (NReq z' lo' z' e'))) /\
       np_min p w nadir (nt_utopian ideal eps) z0 (np_x0 p) = Ok x /\
       (** one of the [n - (length st - 2)] steps that are left from [z0] *)
       nt_point (n - (Z.of_nat (length st) - 2)) z0 (np_eval p x) = Ok z').
Proof.
  intros N p v eps k ideal nadir n s z lo up e qs st d WF [HT1 HT2] HR Hl HV Hn Hb.
  destruct (trail_state p v eps k ideal nadir WF n s z lo up e qs st HR) as (L & w & rest & V1 & V2 & V3 & -> & Est & _ & Vl).
  exists (vz0 w), rest. split; [exact Est|].
  destruct (validate_req _ _ _ _ _ _ _ HV) as ((b & u & Eb & Eu & _) & HD).
  assert (HC : vchange_ok v d w) by (unfold vchange_ok; destruct v; [exact Logic.I|]; rewrite Hn; discriminate).
  pose proof (handle_view p v eps k ideal nadir WF d L w b u V2 HC HD Eb Eu s V1) as G.
  assert (Ei : nt_iterate p v eps ideal nadir (NReq (vz w) lo up e) (Some d) s = nt_handle p v eps ideal nadir d s) by reflexivity. rewrite Ei. clear Ei.
  destruct (nt_handle p v eps ideal nadir d s) as [s' out] eqn:EH.
  assert (NE : forall e1, ecm_fault p e1 -> False) by (intros e1 (j & y & F); destruct (HT2 j y (np_x0 p)) as (x & Hx); congruence).
  assert (TB : truthy b = true) by (destruct Hb as (b' & E' & T); congruence).
  split.
  - intros Hs. destruct out as [r|e1].
    2:{ exfalso. assert (El : ns_left s = vl w) by apply V1. rewrite (handle_half p v eps ideal nadir d s Hn Hb Hs) in EH by lia. unfold sbind in EH.
        destruct (nt_half p v ideal nadir s) as [s1 [q1|e2]] eqn:E1; [discriminate EH|].
        assert (Hoff : nt_off v <= 1) by (destruct v; cbn; lia). destruct V2 as (O1 & O2 & O3 & O).
        eapply (half_fine p v k ideal nadir WF HT2 L w s V1); [split; eauto|lia|exact E1]. }
    destruct G as (L' & w' & HS' & _).
    inversion HS' as [n' l' HC' Hl'|n' l' y q2 HC' Hl' B P Hpt Hsh|n' l' x y q2 HC' Hl' B P Hch Hpt Hsh|n' l' y q2 HC' Hl' B S' Hpt Hsh|n' l' HC' Hl' B S' P|n' l' x y q2 HC' Hl' B S' P Hch Hpt Hsh]; subst w' r;
      try (exfalso; exact (says_fun _ Hb B)); try (exfalso; exact (says_fun _ Hs S')).
    + exfalso. rewrite (counters_none v d _ _ Hn) in HC'. injection HC' as <- <-. lia.
    + destruct Hsh as (b' & e' & -> & _). exists s', y, b', e'. split; [reflexivity|exact Hpt].
  - intros Hs Hp m i wt Em Ei Ew. destruct out as [r|e1].
    2:{ exfalso. destruct G as [G|[[Tu G]|[G _]]]; [exact (NE _ G)| |destruct Hs as (h & E & _); congruence].
        destruct G as [[G|G]|m' i' e' H1 H2 H3|w' q e' H1]; try congruence.
        destruct (HT1 w' nadir (nt_utopian ideal eps) q (np_x0 p)) as (x & Hx). congruence. }
    destruct G as (L' & w' & HS' & _).
    inversion HS' as [n' l' HC' Hl'|n' l' y q2 HC' Hl' B P Hpt Hsh|n' l' x y q2 HC' Hl' B P Hch Hpt Hsh|n' l' y q2 HC' Hl' B S' Hpt Hsh|n' l' HC' Hl' B S' P|n' l' x y q2 HC' Hl' B S' P Hch Hpt Hsh]; subst w' r;
      try (exfalso; exact (says_fun _ Hb B)); try (exfalso; exact (says_fun _ S' Hs)); try (exfalso; exact (says_fun _ P Hp));
      rewrite (counters_none v d _ _ Hn) in HC'; injection HC' as <- <-.
    + exfalso. lia.
    + destruct Hsh as (b' & e' & -> & _). destruct Hch as (m' & i' & wt' & E1 & E2 & E3 & E4). assert (wt' = wt) by congruence. subst wt'.
      exists s', x, y, b', e'. split; [reflexivity|]. split; [exact E4|]. replace (n - (Z.of_nat (length st) - 2))%Z with (vl w) by lia. exact Hpt.
Qed.
Print Assumptions C68_step_back_possible_partial.


(** The session ends exactly when all [n] steps have been taken, whatever is answered. *)
Theorem C68_ends_after_n_steps_partial :
  forall (N : NumOps) (p : nt_problem N) v eps k ideal nadir n s z lo up e qs st d s' q',
  nt_wf k p v ideal nadir ->
  nt_trail p v eps ideal nadir (asks_once n) s (NReq z lo up e :: qs) st ->
  nt_validate v nadir (NReq z lo up e) d = Ok tt -> nd_n d = None ->
  nt_iterate p v eps ideal nadir (NReq z lo up e) (Some d) s = (s', Ok (Some q')) ->
  ((exists x f, q' = NStop x f) <-> (n + 1 <= Z.of_nat (length st))%Z) /\
  (forall x f, q' = NStop x f -> exists y, x = Some y /\ f = Some (np_eval p y)).
Proof.
  intros N p v eps k ideal nadir n s z lo up e qs st d s' q' WF HR HV Hn HI.
  destruct (trail_state p v eps k ideal nadir WF n s z lo up e qs st HR) as (L & w & rest & V1 & V2 & V3 & -> & Est & _ & Vl).
  destruct (validate_req _ _ _ _ _ _ _ HV) as ((b & u & Eb & Eu & _) & HD).
  assert (HC : vchange_ok v d w) by (unfold vchange_ok; destruct v; [exact Logic.I|]; rewrite Hn; discriminate).
  pose proof (handle_view p v eps k ideal nadir WF d L w b u V2 HC HD Eb Eu s V1) as G.
  assert (HI' : nt_handle p v eps ideal nadir d s = (s', Ok (Some q'))) by exact HI. rewrite HI' in G. destruct G as (L' & w' & HS' & _).
  inversion HS' as [n' l' HC' Hl'|n' l' y q2 HC' Hl' B P Hpt Hsh|n' l' x y q2 HC' Hl' B P Hch Hpt Hsh|n' l' y q2 HC' Hl' B S' Hpt Hsh|n' l' HC' Hl' B S' P|n' l' x y q2 HC' Hl' B S' P Hch Hpt Hsh]; subst;
    rewrite (counters_none v d _ _ Hn) in HC'; injection HC' as <- <-; try (destruct Hsh as (b' & e' & -> & _));
    (split; [split; [intros (x' & f' & E); try discriminate E; lia|intros; try lia; eauto]|intros x' f' E; try discriminate E]).
  injection E as <- <-. exists (vx w). rewrite V3. auto.
Qed.
Print Assumptions C68_ends_after_n_steps_partial.

(** The short step back in a session of three iterations, after the second one. *)
Definition st1 : list (list F64) := trail_next [nt_start NV1 eN] (@NInit F64) (a_init 3 1 ranks12) e_q1.
Definition st2 : list (list F64) := trail_next st1 e_q1 a_keep e_q2.
Lemma e_trail1 : nt_trail eA NV1 eEps eI eN (asks_once 3) e_s1 [e_q1; NInit] st1.
Proof.
  unfold nt_trail, st1. eapply nt_run_step; [apply nt_run_start|vm_compute; reflexivity| |exact e_step1].
  split; [intros _; exists (VInt 3); split; reflexivity|congruence].
Qed.
Lemma e_trail2 : nt_trail eA NV1 eEps eI eN (asks_once 3) e_s2 [e_q2; e_q1; NInit] st2.
Proof.
  unfold nt_trail, st2. eapply nt_run_step; [exact e_trail1|vm_compute; reflexivity| |exact e_step2].
  split; [intros E; exfalso; exact (not_init e_q1 e_ni1 E)|]. reflexivity.
Qed.
Example C68_step_back_hypotheses_met :
  nt_wf 2 eA NV1 eI eN /\ nt_total eA /\
  nt_trail eA NV1 eEps eI eN (asks_once 3) e_s2 [e_q2; e_q1; NInit] st2 /\ length st2 = 3 /\
  nt_validate NV1 eN e_q2 a_short = Ok tt /\ nd_n a_short = None /\ says (nd_back a_short) true /\ says (nd_short a_short) true.
Proof.
  split; [exact e_wf|]. split; [exact (eP_total e6 epts)|]. split; [exact e_trail2|]. split; [vm_compute; reflexivity|].
  split; [vm_compute; reflexivity|]. split; [reflexivity|]. split; exists (VBool true); auto.
Qed.

(** ** C70, what can be repeated *)
(** The first request: after a call that raised, answering it (again) gives exactly
    what the same answer gives on a new object. *)
Theorem C70_initial_request_partial :
  forall (N : NumOps) (p : nt_problem N) v eps ideal nadir r s' e d,
  nt_iterate p v eps ideal nadir NInit r nt_init = (s', Raise e) ->
  nt_validate v nadir NInit d = Ok tt ->
  nt_iterate p v eps ideal nadir NInit (Some d) s' = nt_iterate p v eps ideal nadir NInit (Some d) nt_init.
Proof.
  intros N p v eps ideal nadir r s' e d H HV.
  assert (E : ns_step s' = 1).
  { cbn [nt_iterate] in H. destruct r as [d0|]; [|unfold sbind, lift in H; cbn in H; injection H as <- _; reflexivity].
    unfold sbind, lift in H. cbn [nt_resp] in H. destruct (nt_handle_initial p v eps ideal nadir d0 nt_init) as [s1 [q1|e1]] eqn:E1; [discriminate H|]. injection H as <- _.
    eapply initial_step_kept; [| |exact E1]; reflexivity. }
  destruct (validate_init _ _ _ HV) as (_ & _ & _ & o & m & Eo & Em & _).
  destruct (initial_afresh p v eps ideal nadir d s' nt_init) as [G|[(o' & G1 & G2)|G]]; [rewrite E; reflexivity|congruence|congruence|].
  cbn [nt_iterate nt_resp]. unfold sbind, lift. rewrite G. reflexivity.
Qed.
Print Assumptions C70_initial_request_partial.

(** A step back that raises leaves the object exactly as it was (the solver of the
    bounds does not fail). *)
Theorem C70_step_back_partial :
  forall (N : NumOps) (p : nt_problem N) v eps k ideal nadir n s z lo up e qs st d s' er,
  nt_wf k p v ideal nadir -> (forall i y x0, exists x, np_ecm p i y x0 = Ok x) ->
  nt_trail p v eps ideal nadir (asks_once n) s (NReq z lo up e :: qs) st ->
  nd_n d = None -> says (nd_back d) true ->
  nt_iterate p v eps ideal nadir (NReq z lo up e) (Some d) s = (s', Raise er) -> s' = s.
Proof.
  intros N p v eps k ideal nadir n s z lo up e qs st d s' er WF HE HR Hn Hb HI.
  destruct (trail_state p v eps k ideal nadir WF n s z lo up e qs st HR) as (L & w & rest & V1 & V2 & _).
  exact (back_same p v eps k ideal nadir WF HE L w s d s' er V1 V2 Hn Hb HI).
Qed.
Print Assumptions C70_step_back_partial.

(** A step forward with new preferences that raises has counted the step.  As long as
    two more steps are left, it can be repaired: a full step back with preferences
    [d'] now gives exactly what a step forward with these preferences would have
    given before the failure (request and object). *)
Theorem C70_step_forward_repair_partial :
  forall (N : NumOps) (p : nt_problem N) v eps k ideal nadir n s z lo up e qs st d s' er d1 d2,
  nt_wf k p v ideal nadir -> (forall i y x0, exists x, np_ecm p i y x0 = Ok x) ->
  nt_trail p v eps ideal nadir (asks_once n) s (NReq z lo up e :: qs) st -> (Z.of_nat (length st) < n)%Z ->
  renews d -> nt_iterate p v eps ideal nadir (NReq z lo up e) (Some d) s = (s', Raise er) ->
  (** the preferences of [d1] (a step forward) and [d2] (a step back) are the same *)
  renews d1 -> says (nd_back d2) true -> says (nd_short d2) false -> says (nd_prev d2) false -> nd_n d2 = None ->
  nd_method d2 = nd_method d1 -> nd_info d2 = nd_info d1 ->
  nt_iterate p v eps ideal nadir (NReq z lo up e) (Some d2) s' = nt_iterate p v eps ideal nadir (NReq z lo up e) (Some d1) s.
Proof.
  intros N p v eps k ideal nadir n s z lo up e qs st d s' er d1 d2 WF HE HR Hl (B & P & Hn) HI (B1 & P1 & Hn1) B2 S2 P2 Hn2 Em Ei.
  destruct (trail_state p v eps k ideal nadir WF n s z lo up e qs st HR) as (L & w & rest & V1 & V2 & _ & _ & _ & _ & Vl).
  destruct (forward_same p v eps k ideal nadir WF HE L w s d s' er V1 V2 Hn B HI P) as [-> _].
  assert (El : ns_left s = vl w) by apply V1.
  exact (forward_as_back p v eps ideal nadir s d1 d2 Hn1 Hn2 B1 P1 B2 S2 P2 Em Ei ltac:(lia)).
Qed.
Print Assumptions C70_step_forward_repair_partial.

(** The failing call of [C70_failed_call_refuted] and its repair. *)
Definition a_repair : nt_dict F64 :=
  MkND (nd_n a_good) (Some (VBool true)) (Some (VBool false)) (Some (VBool false)) (nd_method a_good) (nd_info a_good).
Definition e_fixed := nt_iterate eA NV1 eEps eI eN e_q1 (Some a_repair) (fst e_bad).
Example C70_hypotheses_met :
  nt_trail eA NV1 eEps eI eN (asks_once 3) e_s1 [e_q1; NInit] st1 /\ (Z.of_nat (length st1) < 3)%Z /\ renews a_badlist /\ renews a_good /\
  nt_iterate eA NV1 eEps eI eN e_q1 (Some a_badlist) e_s1 = (fst e_bad, Raise TypeErr) /\
  nt_validate NV1 eN e_q1 a_repair = Ok tt /\
  nt_iterate eA NV1 eEps eI eN e_q1 (Some a_repair) (fst e_bad) = nt_iterate eA NV1 eEps eI eN e_q1 (Some a_good) e_s1.
Proof.
  split; [exact e_trail1|]. split; [vm_compute; reflexivity|].
  assert (R : forall i, renews (a_new i)) by (intros i; split; [exists (VBool false); auto|split; [exists (VBool false); auto|reflexivity]]).
  split; [apply R|]. split; [apply R|]. split; [vm_cast_no_check (eq_refl (fst e_bad, @Raise (option (nt_request F64)) TypeErr))|].
  split; [vm_compute; reflexivity|]. vm_cast_no_check (eq_refl e_fixed).
Qed.
