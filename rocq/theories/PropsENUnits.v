(** * E-NAUTILUS: objectives measured in other units (C112).
    Vocabulary in SENUnits.v. *)
From Coq Require Import ZArith List Bool Lia Reals Lra.
From Verif Require Import Num NumXR Py Np Spec NpFacts XRFacts MENautilus SENUnits PENUnits PENUnits2 PENautilus PENautilus3 PENautilus5.
Import ListNotations.
Open Scope R_scope.

(** Two objects, one with the data in the old units, the other in the new ones; whatever
    was answered, all requests correspond, the same answers are valid, and every next
    call either raises the same exception in both or returns corresponding requests. *)
Theorem C112_units :
  forall us F ideal nadir vars, proper_units us ->
  is_matrix (length us) F -> length ideal = length us -> length nadir = length us ->
  (forall v, vars = Some v -> length v = length F) ->
  forall s1 s2 qs, en_twins us F ideal nadir vars s1 s2 qs ->
  forall q1 q2, In (q1, q2) qs ->
    corresponds us q1 q2 /\
    (forall d1 d2, same_answer us d1 d2 -> en_validate q2 d2 = en_validate q1 d1) /\
    (forall km1 km2, same_clusters us km1 km2 ->
       corresponding_outcome us (snd (en_iterate km1 q1 None s1)) (snd (en_iterate km2 q2 None s2)) /\
       forall d1 d2, same_answer us d1 d2 -> well_formed (length us) d1 ->
         corresponding_outcome us (snd (en_iterate km1 q1 (Some d1) s1)) (snd (en_iterate km2 q2 (Some d2) s2))).
Proof.
  intros us F ideal nadir vars HU HF HI HN HV s1 s2 qs T q1 q2 Hin.
  assert (C : corresponds us q1 q2).
  { destruct (twins_inv us HU F ideal nadir vars HF HI HN HV s1 s2 qs T) as (_ & _ & H). rewrite Forall_forall in H. exact (proj1 (H _ Hin)). }
  split; [exact C|]. split; [intros; apply (validate_conv us); assumption|]. intros km1 km2 HK. split.
  - eapply (twins_outcome us HU F ideal nadir vars HF HI HN HV); eauto. exact I.
  - intros d1 d2 HA HW. eapply (twins_outcome us HU F ideal nadir vars HF HI HN HV); eauto. split; assumption.
Qed.
Print Assumptions C112_units.

(** The point that ends the method corresponds to the one that ends the other, and with a
    common factor the decision vector is the same. *)
Theorem C112_final_solution :
  forall us F ideal nadir vars, proper_units us -> common_factor us ->
  is_matrix (length us) F -> length ideal = length us -> length nadir = length us ->
  (forall v, vars = Some v -> length v = length F) ->
  forall s1 s2 qs, en_twins us F ideal nadir vars s1 s2 qs ->
  forall z x q, In (EStop z x, q) qs -> q = EStop (conv_vec us z) x.
Proof.
  intros us F ideal nadir vars HU HC HF HI HN HV s1 s2 qs T z x q Hin.
  destruct (C112_units us F ideal nadir vars HU HF HI HN HV s1 s2 qs T _ _ Hin) as (C & _).
  destruct q as [| |z' x']; cbn in C; try contradiction. destruct C as (-> & _ & C). rewrite (C HC). reflexivity.
Qed.
Print Assumptions C112_final_solution.

Definition kU : list unit_change := [(2, 1); (1000, -3)].
(** A session of two answered requests up to the stop, in exact arithmetic. *)
Lemma dkm_same us : same_clusters us dkm' dkm'.
Proof. intros rows n _. unfold dkm', conv_rows. rewrite map_length. reflexivity. Qed.
Lemma dd_same us : same_answer us dd0 dd0 /\ same_answer us dd1 dd1 /\ well_formed (length us) dd0 /\ well_formed (length us) dd1.
Proof. repeat split; intros m [H|[H|H]]; discriminate. Qed.
Example C112_hypotheses_met :
  proper_units kU /\ ~ common_factor kU /\ is_matrix (length kU) (xm dF) /\
  exists s1 s2 m1 c1 q2 z x x' qs, en_twins kU (xm dF) (xv [0; 0]) (xv dnd) (Some dV) s1 s2 qs /\
    In (EReq m1 c1, q2) qs /\ length (ec_points c1) = 2%nat /\ In (EStop z x, EStop (conv_vec kU z) x') qs.
Proof.
  split; [repeat constructor; cbn; lra|]. split.
  { intros H. specialize (H (2, 1) (1000, -3) ltac:(cbn; auto) ltac:(cbn; auto)). cbn in H. lra. }
  split; [repeat constructor|].
  assert (HU : proper_units kU) by (repeat constructor; cbn; lra). assert (HM : is_matrix (length kU) (xm dF)) by (repeat constructor).
  assert (HV : forall v, Some dV = Some v -> length v = length (xm dF)) by (intros v [= <-]; reflexivity).
  destruct demo as (s1 & mi1 & c1 & s2 & mi2 & c2 & s3 & z & x & p & E1 & E2 & E3 & _ & _ & _ & _ & _ & _ & _ & _ & _ & _ & HL & HV1).
  pose proof (dkm_same kU) as HK. destruct (dd_same kU) as (A0 & A1 & B0 & B1). unfold ds0 in E1.
  pose proof (en_twins_init kU (xm dF) (xv [0; 0]) (xv dnd) (Some dV)) as T0.
  set (q0 := en_start (en_init (xm dF) (xv [0; 0]) (xv dnd) (Some dV))) in *. set (r0 := en_start (en_init (conv_rows kU (xm dF)) _ _ _)) in *.
  set (t0 := en_init (conv_rows kU (xm dF)) _ _ _) in *.
  destruct (C112_units kU (xm dF) (xv [0; 0]) (xv dnd) (Some dV) HU HM eq_refl eq_refl HV _ _ _ T0 q0 r0 ltac:(left; reflexivity)) as (_ & _ & K). destruct (K _ _ HK) as (_ & K'). specialize (K' dd0 dd0 A0 B0). clear K. rewrite E1 in K'. cbn [snd] in K'.
  destruct (en_iterate dkm' r0 (Some dd0) t0) as [t1 [r1|e]] eqn:F1; cbn [snd corresponding_outcome] in K'; [|contradiction]. clear K'.
  pose proof (en_twins_answered kU _ _ _ _ _ _ _ q0 r0 dd0 dd0 dkm' dkm' _ _ _ _ T0 ltac:(left; reflexivity) HK eq_refl A0 B0 E1 F1) as T1. cbv iota in T1.
  destruct (C112_units kU (xm dF) (xv [0; 0]) (xv dnd) (Some dV) HU HM eq_refl eq_refl HV _ _ _ T1 (EReq mi1 c1) r1 ltac:(left; reflexivity)) as (_ & _ & K). destruct (K _ _ HK) as (_ & K'). specialize (K' dd1 dd1 A1 B1). clear K. rewrite E2 in K'. cbn [snd] in K'.
  destruct (en_iterate dkm' r1 (Some dd1) t1) as [t2 [r2|e]] eqn:F2; cbn [snd corresponding_outcome] in K'; [|contradiction]. clear K'.
  pose proof (en_twins_answered kU _ _ _ _ _ _ _ (EReq mi1 c1) r1 dd1 dd1 dkm' dkm' _ _ _ _ T1 ltac:(left; reflexivity) HK HV1 A1 B1 E2 F2) as T2. cbv iota in T2.
  destruct (C112_units kU (xm dF) (xv [0; 0]) (xv dnd) (Some dV) HU HM eq_refl eq_refl HV _ _ _ T2 (EReq mi2 c2) r2 ltac:(left; reflexivity)) as (_ & _ & K). destruct (K _ _ HK) as (_ & K'). specialize (K' dd1 dd1 A1 B1). clear K. rewrite E3 in K'. cbn [snd] in K'.
  destruct (en_iterate dkm' r2 (Some dd1) t2) as [t3 [r3|e]] eqn:F3; cbn [snd corresponding_outcome] in K'; [|contradiction].
  assert (HV2 : en_validate (EReq mi2 c2) dd1 = Ok tt).
  { cbn [en_validate]. unfold en_validate_req. cbn [dd1 d_index d_step_back d_change negb]. destruct (Z.ltb_spec (Z.of_nat mi2) 0); [lia|reflexivity]. }
  pose proof (en_twins_answered kU _ _ _ _ _ _ _ (EReq mi2 c2) r2 dd1 dd1 dkm' dkm' _ _ _ _ T2 ltac:(left; reflexivity) HK HV2 A1 B1 E3 F3) as T3. cbv iota in T3.
  destruct r3 as [| |z' x']; cbn [corresponds] in K'; try contradiction. destruct K' as (-> & _).
  exists s3, t3, mi1, c1, r1, z, x, x'. eexists. split; [exact T3|]. split; [right; right; left; reflexivity|]. split; [exact HL|left; reflexivity].
Qed.
