(** * NAUTILUS and NAUTILUS 2: a full step back undoes the last step (C108). *)
From Coq Require Import ZArith List Bool Lia Floats.
From Verif Require Import Num NumF64 Py Np Spec NpFacts Hoare MNautilus SNautilus SNautBack PNautilus5 PNautilus10 PNautilus11 PropsNautilus PropsNautilus3.
Import ListNotations.

(** From an object in any state, the request [NReq z lo up e] is answered with a step
    forward [a] (with new or the previous preferences); then any number of steps back
    are taken, short ones, full ones, failing ones, each in answer to the request
    returned last.  A full step back with new preferences that leads to an iteration
    point leads to exactly the request, and leaves exactly the object, that a step
    forward with these preferences would have given instead of [a].  From there on
    nothing tells the two sessions apart. *)
Theorem C108_full_step_back :
  forall (N : NumOps) (p : nt_problem N) v eps ideal nadir s z lo up e a s1 q1 s2 q2 b b' s3 z' lo' up' e',
  says (nd_back a) false -> nd_n a = None ->
  nt_iterate p v eps ideal nadir (NReq z lo up e) (Some a) s = (s1, Ok (Some q1)) ->
  went_back p v eps ideal nadir s1 q1 s2 q2 ->
  full_back b' -> renews b -> nd_method b' = nd_method b -> nd_info b' = nd_info b ->
  nt_iterate p v eps ideal nadir q2 (Some b') s2 = (s3, Ok (Some (NReq z' lo' up' e'))) ->
  nt_iterate p v eps ideal nadir (NReq z lo up e) (Some b) s = (s3, Ok (Some (NReq z' lo' up' e'))).
Proof. intros. eapply undo_forward; eauto. Qed.
Print Assumptions C108_full_step_back.

(** The same for the first answer: steps back from the first iteration point, the last
    one full, give what the preferences of the last one would have given as the first
    answer, for the same number of iterations. *)
Theorem C108_first_answer :
  forall (N : NumOps) (p : nt_problem N) v eps ideal nadir a s1 q1 s2 q2 b b' s3 z' lo' up' e',
  nt_validate v nadir NInit a = Ok tt ->
  nt_iterate p v eps ideal nadir NInit (Some a) nt_init = (s1, Ok (Some q1)) ->
  went_back p v eps ideal nadir s1 q1 s2 q2 ->
  full_back b' -> nd_n b = nd_n a -> nd_method b' = nd_method b -> nd_info b' = nd_info b ->
  nt_iterate p v eps ideal nadir q2 (Some b') s2 = (s3, Ok (Some (NReq z' lo' up' e'))) ->
  nt_iterate p v eps ideal nadir NInit (Some b) nt_init = (s3, Ok (Some (NReq z' lo' up' e'))).
Proof.
  intros N p v eps ideal nadir a s1 q1 s2 q2 b b' s3 z' lo' up' e' HV HI HW HF En Em Ei HI2.
  assert (G : exists o n, nd_n a = Some o /\ as_int o = Some n).
  { destruct (nd_n a) as [o|] eqn:Ea.
    - destruct (as_int o) as [n|] eqn:Eo; [eauto|]. cbn in HI. unfold sbind, lift, nt_handle_initial, sbind, lift in HI. rewrite Ea in HI. cbn [key] in HI. rewrite Eo in HI. discriminate HI.
    - cbn in HV. rewrite Ea in HV. discriminate HV. }
  destruct G as (o & n & Ea & Eo). eapply undo_initial; eauto.
Qed.
Print Assumptions C108_first_answer.

(** A session of three iterations, after the first step: a step forward with other
    preferences, a short step back, and a full one with equal percentages; and the
    same from the first request. *)
Definition a_other : nt_dict F64 := a_new (PArr ([10; 90]%float : list F64)).
Definition u_1 := nt_iterate eA NV1 eEps eI eN e_q1 (Some a_other) e_s1.
Definition u_q (r : res (option (nt_request F64))) : nt_request F64 := match r with Ok (Some q) => q | _ => NInit end.
Definition u_2 := nt_iterate eA NV1 eEps eI eN (u_q (snd u_1)) (Some a_short) (fst u_1).
Definition u_3 := nt_iterate eA NV1 eEps eI eN (u_q (snd u_2)) (Some a_repair) (fst u_2).
Definition u_i := nt_iterate eA NV1 eEps eI eN e_q1 (Some a_repair) e_s1.
Definition is_ok (r : res (option (nt_request F64))) : bool := match r with Ok (Some (NReq _ _ _ _)) => true | _ => false end.
Lemma is_ok_eq (m : nt_state F64 * res (option (nt_request F64))) : is_ok (snd m) = true -> m = (fst m, Ok (Some (u_q (snd m)))) /\ exists z lo up e, m = (fst m, Ok (Some (NReq z lo up e))).
Proof. destruct m as [s [[[|z lo up e|x f]|]|er]]; try discriminate. intros _. split; [reflexivity|]. exists z, lo, up, e. reflexivity. Qed.
Lemma u_ok1 : is_ok (snd u_1) = true. Proof. vm_compute; reflexivity. Qed.
Lemma u_ok2 : is_ok (snd u_2) = true. Proof. vm_compute; reflexivity. Qed.
Lemma u_ok3 : is_ok (snd u_3) = true. Proof. vm_compute; reflexivity. Qed.
Lemma u_oki : is_ok (snd u_i) = true. Proof. vm_compute; reflexivity. Qed.
Lemma u_val : nt_validate NV1 eN (u_q (snd u_1)) a_short = Ok tt. Proof. vm_compute; reflexivity. Qed.
Lemma u_init : nt_iterate eA NV1 eEps eI eN NInit (Some (a_init 3 1 ranks12)) nt_init = (e_s1, Ok (Some e_q1)).
Proof. vm_cast_no_check (eq_refl (e_s1, @Ok (option (nt_request F64)) (Some e_q1))). Qed.
Lemma u_back : went_back eA NV1 eEps eI eN (fst u_1) (u_q (snd u_1)) (fst u_2) (u_q (snd u_2)).
Proof.
  exact (wb_more eA NV1 eEps eI eN (fst u_1) (u_q (snd u_1)) (fst u_1) (u_q (snd u_1)) a_short (fst u_2) (Ok (Some (u_q (snd u_2)))) (wb_none _ _ _ _ _ _ _)
      u_val (ex_intro _ (VBool true) (conj eq_refl eq_refl)) eq_refl (proj1 (is_ok_eq u_2 u_ok2))).
Qed.
Example C108_hypotheses_met :
  renews a_other /\ renews a_good /\ full_back a_repair /\ nd_method a_repair = nd_method a_good /\ nd_info a_repair = nd_info a_good /\
  u_1 = (fst u_1, Ok (Some (u_q (snd u_1)))) /\
  went_back eA NV1 eEps eI eN (fst u_1) (u_q (snd u_1)) (fst u_2) (u_q (snd u_2)) /\
  (exists z lo up e, u_3 = (fst u_3, Ok (Some (NReq z lo up e)))) /\
  (** the first answer undone *)
  nt_iterate eA NV1 eEps eI eN NInit (Some (a_init 3 1 ranks12)) nt_init = (e_s1, Ok (Some e_q1)) /\
  (exists z lo up e, u_i = (fst u_i, Ok (Some (NReq z lo up e)))).
Proof.
  assert (R : forall i, renews (a_new i)) by (intros i; split; [exists (VBool false); auto|split; [exists (VBool false); auto|reflexivity]]).
  split; [apply R|]. split; [apply R|]. split; [split; [exists (VBool true); auto|split; [exists (VBool false); auto|split; [exists (VBool false); auto|reflexivity]]]|].
  split; [reflexivity|]. split; [reflexivity|]. split; [exact (proj1 (is_ok_eq _ u_ok1))|]. split; [exact u_back|]. split; [exact (proj2 (is_ok_eq _ u_ok3))|].
  split; [exact u_init|]. exact (proj2 (is_ok_eq _ u_oki)).
Qed.
