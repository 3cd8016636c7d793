(** * Pareto Navigator: the step parameter in IEEE doubles. *)
From Coq Require Import ZArith List Bool Lia Floats.
From Verif Require Import Num NumF64 Py Np Spec NpFacts Hoare MRpm MParetoNav SParetoNav PParetoNav PParetoNav2 PParetoNav5.
Import ListNotations.

(** speed / 5 / 10, rounded twice. *)
Definition fstep_of (z : Z) : F64 := ndiv (ndiv (nofZ z) (nofZ 5)) (nofZ 10).
Definition fsigned (g z : Z) : F64 := if (g =? 1)%Z then fstep_of z else nmul (fstep_of z) (nofZ (-1)).
Definition gear_okF (s : pn_state F64) (g : pn_gear) : Prop :=
  (1 <= g_speed g <= 5)%Z /\ (g_sign g = 1 \/ g_sign g = -1)%Z /\ ps_speed s = Some (fsigned (g_sign g) (g_speed g)).

Ltac five z H := assert (z = 1 \/ z = 2 \/ z = 3 \/ z = 4 \/ z = 5)%Z as [-> | [-> | [-> | [-> | ->]]]] by lia.
Lemma fsigned_back z g : (1 <= z <= 5)%Z -> (g = 1 \/ g = -1)%Z -> nmul (fsigned g z) (nofZ (-1)) = fsigned (- g) z.
Proof. intros H G. five z H; destruct G as [-> | ->]; vm_compute; reflexivity. Qed.
Lemma fsigned_abs z g : (1 <= z <= 5)%Z -> (g = 1 \/ g = -1)%Z -> nabs (fsigned g z) = fstep_of z.
Proof. intros H G. five z H; destruct G as [-> | ->]; vm_compute; reflexivity. Qed.
Lemma fstep_range z : (1 <= z <= 5)%Z -> nltb (nofZ 0) (fstep_of z) = true /\ nleb (fstep_of z) (0.1%float : F64) = true.
Proof. intros H. five z H; vm_compute; auto. Qed.

Lemma fspeed_int z : pn_speed_of (N:=F64) (VInt z) = Ok (fstep_of z).
Proof. reflexivity. Qed.
Lemma valid_speed_initF (q : pn_request F64) d : (match q with PInit _ _ _ => True | _ => False end) -> pn_validate q d = Ok tt -> exists v, pd_speed d = Some v /\ pn_check_speed v = Ok tt.
Proof.
  destruct q as [i n p| | |]; try contradiction. intros _. cbn [pn_validate]. intros H. apply rbind_ok in H. destruct H as (u & _ & H). destruct (pd_speed d) as [v|]; [eauto|discriminate].
Qed.
Lemma valid_speed_reqF c i n (d : pn_dict F64) v : is_true (pd_show d) = false -> pn_validate (PReq c i n) d = Ok tt -> pd_speed d = Some v -> pn_check_speed v = Ok tt.
Proof.
  cbn [pn_validate]. intros -> H E. rewrite E in H. apply rbind_ok in H. destruct H as ([] & H & _). exact H.
Qed.
Lemma gear_stepF e q d s s' q' g : (forall i n p, q <> PInit i n p) -> gear_okF s g -> pn_validate q d = Ok tt -> int_speeds q d ->
  pn_iterate e q (Some d) s = (s', Ok q') -> gear_okF s' (next_gear g q d q').
Proof.
  intros Hq (G1 & G2 & G3) Hv Hint H. destruct q as [i n p|c i n|c x f|c x f]; cbn [pn_iterate] in H; [edestruct Hq; reflexivity| | |].
  - destruct (is_true (pd_show d)) eqn:Es.
    + apply show_ok in H; [|exact Es]. destruct H as (c' & x & f & _ & -> & -> & _). cbn. split; auto.
    + apply handle_ok in H; [|exact Es]. destruct H as (a & c' & q & dir & z & E1 & _ & _ & _ & _ & -> & ->).
      unfold pn_step_of in E1. cbn [next_gear]. unfold gear_okF. cbn [p_cur ps_speed p_ref p_speed g_speed g_sign]. unfold pn_back.
      destruct (pd_speed d) as [v|] eqn:Ev.
      * pose proof (valid_speed_reqF _ _ _ _ _ Es Hv Ev) as Hc. destruct (Hint _ Ev) as (zv & ->).
        apply check_speed_range in Hc. destruct Hc as (z' & E & Hr). cbn in E. injection E as <-.
        rewrite fspeed_int in E1. cbn [rbind] in E1. apply (f_equal (fun r => match r with Ok x => x | _ => fstep_of 0 end)) in E1. cbv beta iota in E1. subst a. split; [exact Hr|].
        destruct (is_true (pd_back d)).
        -- split; [auto|]. reflexivity.
        -- split; [auto|]. f_equal. apply (fsigned_abs zv 1); auto.
      * rewrite G3 in E1. cbn [attr rbind] in E1. apply (f_equal (fun r => match r with Ok x => x | _ => fstep_of 0 end)) in E1. cbv beta iota in E1. subst a. split; [exact G1|].
        destruct (is_true (pd_back d)).
        -- split; [lia|]. f_equal. apply fsigned_back; auto.
        -- split; [auto|]. f_equal. apply fsigned_abs; auto.
  - cbn [next_gear]. unfold gear_okF. destruct (is_true (pd_sat d)) eqn:Es.
    + apply satisfied_ok in H; [|exact Es]. destruct H as (c' & x' & f' & _ & _ & -> & ->). auto.
    + apply continue_ok in H; [|cbn; rewrite Es; reflexivity]. destruct H as (x' & f' & eqs & lo & hi & c' & Ha & Hc & ->).
      destruct Ha as [_ _ _ _ _ _ _ _ _ _ _ (B1 & _)]. rewrite B1. auto.
  - cbn in H. injection H as <- <-. cbn. unfold gear_okF. auto.
Qed.
Lemma gear_initF e q d s s' q' g : (match q with PInit _ _ _ => True | _ => False end) -> pn_validate q d = Ok tt -> int_speeds q d ->
  pn_iterate e q (Some d) s = (s', Ok q') -> gear_okF s' (next_gear g q d q').
Proof.
  intros Hq Hv Hint H. destruct (valid_speed_initF q d Hq Hv) as (v & Ev & Hc). destruct q as [i n p| | |]; try contradiction.
  cbn [pn_iterate] in H. unfold sbind, lift in H. cbn [attr] in H. apply initial_ok in H. destruct H as (q & c & v' & a & -> & -> & Ev' & Ea & _).
  assert (v' = v) by congruence. subst v'. destruct (Hint _ Ev) as (z & ->). rewrite fspeed_int in Ea. apply (f_equal (fun r => match r with Ok x => x | _ => fstep_of 0 end)) in Ea. cbv beta iota in Ea. subst a.
  apply check_speed_range in Hc. destruct Hc as (z' & E & Hr). cbn in E. injection E as <-.
  cbn [next_gear]. rewrite Ev. unfold gear_okF. cbn [p_cur ps_speed p_ref p_speed g_speed g_sign]. split; [exact Hr|]. split; [auto|]. reflexivity.
Qed.
Lemma run_gearF e g0 (A : pn_request F64 -> pn_dict F64 -> Prop) s0 s q qs h : (forall q d, A q d -> int_speeds q d) ->
  pn_run e next_gear g0 A s0 s (q :: qs) h -> match q with PInit _ _ _ => qs = [] | _ => gear_okF s h end.
Proof.
  intros HA H. remember (q :: qs) as l. revert q qs Heql. induction H as [|s q0 qs0 h d s' q' H IH Hv Ha Hi]; intros q qs E; injection E as <- <-.
  - reflexivity.
  - specialize (IH _ _ eq_refl). pose proof (iterate_shown F64_ord e q0 d s s' q' (run_shown F64_ord e _ _ _ _ _ _ _ _ H) Hi) as [_ Hm].
    assert (Hq' : match q' with PInit _ _ _ => False | _ => True end) by (destruct q0, q'; auto).
    assert (HG : gear_okF s' (next_gear h q0 d q')).
    { destruct q0 eqn:Eq0.
      - eapply gear_initF; [exact I|exact Hv|apply HA; exact Ha|exact Hi].
      - eapply gear_stepF; [discriminate|exact IH|exact Hv|apply HA; exact Ha|exact Hi].
      - eapply gear_stepF; [discriminate|exact IH|exact Hv|apply HA; exact Ha|exact Hi].
      - eapply gear_stepF; [discriminate|exact IH|exact Hv|apply HA; exact Ha|exact Hi]. }
    destruct q'; [contradiction|exact HG|exact HG|exact HG].
Qed.
