(** * E-NAUTILUS: whole sessions whose step-backs repeat an earlier request. *)
From Coq Require Import ZArith List Bool Lia Reals Lra.
From Verif Require Import Num NumXR Py Np Spec NpFacts XRFacts MENautilus PENautilus PENautilus2 PENautilus3 PENautilus4.
Import ListNotations.

Section Honest.
  Context {N : NumOps}.
  (** A response is honest when it passes validation, a step back repeats the
      data of an earlier request, and a changed number of remaining iterations
      is positive. *)
  Definition honest (qs : list (en_request N)) (q : en_request N) (d : en_dict N) : Prop :=
    en_validate q d = Ok tt /\
    (d_step_back d = Some true ->
       exists mi c, In (EReq mi c) qs /\
         d_prev_solutions d = Some (ec_points c) /\ d_prev_lb d = Some (ec_lb c) /\
         d_prev_ub d = Some (ec_ub c) /\ d_iterations_left d = Some (ec_left c) /\
         d_prev_dist d = Some (ec_dist c)) /\
    (d_step_back d = Some false -> d_change d = Some true ->
       exists n, d_iterations_left d = Some n /\ (1 <= n)%Z).

  Inductive en_session (front : list (list N)) (ideal nadir : list N) (vars : option (list (list N)))
    : en_state N -> list (en_request N) -> Prop :=
  | es_start :
      en_session front ideal nadir vars (en_init front ideal nadir vars)
                 [en_start (en_init front ideal nadir vars)]
  | es_step s qs q resp km s' out :
      en_session front ideal nadir vars s qs -> In q qs ->
      (forall d, resp = Some d -> honest qs q d) ->
      en_iterate km q resp s = (s', out) ->
      en_session front ideal nadir vars s' (match out with Ok q' => q' :: qs | Raise _ => qs end).

  Lemma session_reach front ideal nadir vars s qs :
    en_session front ideal nadir vars s qs -> en_reach front ideal nadir vars s qs.
  Proof.
    induction 1 as [|s qs q resp km s' out Hs IH Hin Hh E]; [constructor|].
    econstructor; eauto. intros d Hd. apply (Hh d Hd).
  Qed.
End Honest.

Section Box.
  Local Open Scope R_scope.
  Variables (F : list (list R)) (id nd : list R) (ideal : list XR) (vars : option (list (list XR))).
  Hypothesis Hid : length id = length nd.
  Hypothesis HF : Forall (fun r => rvle id r /\ rvle r nd) F.
  Hypothesis Hidnd : rvle id nd.

  Definition good_req (q : en_request XR) : Prop :=
    match q with
    | EReq mi c =>
        (1 <= ec_left c)%Z /\
        (exists pts, ec_points c = xm pts /\ Forall (fun y => rvle id y /\ rvle y nd) pts) /\
        is_matrix (length nd) (ec_lb c) /\ is_matrix (length nd) (ec_ub c) /\
        length (ec_lb c) = length (ec_points c) /\ length (ec_ub c) = length (ec_points c)
    | EStop o x => exists y, o = xv y /\ rvle id y /\ rvle y nd
    | EInit _ _ => True
    end.

  Lemma HFlen : Forall (fun r => length r = length nd) F.
  Proof. eapply Forall_impl; [|exact HF]. simpl. intros r [_ H]. apply (rvle_len _ _ H). Qed.

  Lemma step_box n p z : (1 <= n)%Z -> rvle id p -> rvle p nd -> rvle id z -> rvle z nd ->
    rvle id (step_towards n p z) /\ rvle (step_towards n p z) nd.
  Proof.
    intros Hn H1 H2 H3 H4. unfold step_towards.
    assert (Hp : 0 < IZR n) by (apply IZR_lt; lia).
    replace (IZR (n - 1) / IZR n) with (1 - 1 / IZR n) by (rewrite minus_IZR; field; lra).
    apply rcomb_between; auto.
    - split; [apply Rlt_le, Rdiv_lt_0_compat; lra|].
      apply (Rmult_le_reg_r (IZR n)); auto. unfold Rdiv. rewrite Rmult_assoc, Rinv_l by lra.
      assert (1 <= IZR n) by (apply IZR_le; auto). lra.
    - rewrite (rvle_len _ _ H2), (rvle_len _ _ H4). auto.
  Qed.

  Lemma good_of_spec p n reach c mi :
    (1 <= n)%Z -> rvle id p -> rvle p nd ->
    request_spec F nd (length nd) p n reach c -> good_req (EReq mi c).
  Proof.
    intros Hn H1 H2 (Hn0 & El & _ & zb & Hzb & Ep & _ & Eb). simpl. rewrite El.
    split; [auto|]. split.
    - exists (map (step_towards n p) zb). split; auto. rewrite Forall_map.
      eapply Forall_impl; [|exact Hzb]. simpl. intros z (j & _ & Hj).
      rewrite Forall_forall in HF. destruct (HF z (nth_error_In _ _ Hj)). apply step_box; auto.
    - destruct (en_bounds_ok _ _ _ _ _ Eb) as (F1 & F2 & _).
      split; [|split; [|split; [symmetry; eapply Forall2_len; eauto|symmetry; eapply Forall2_len; eauto]]].
      + apply Forall_forall. intros lb Hlb. destruct (Forall2_In_r _ _ _ _ F1 Hlb) as (a & _ & ub & Hb).
        destruct (en_bounds1_ok _ _ _ _ _ Hb) as (_ & ? & _). auto.
      + apply Forall_forall. intros ub Hub. destruct (Forall2_In_r _ _ _ _ F2 Hub) as (a & _ & lb & Hb).
        destruct (en_bounds1_ok _ _ _ _ _ Hb) as (_ & _ & ? & _). auto.
  Qed.

  Lemma en_stop_obj s (p : list XR) o x : en_stop s p = Ok (EStop o x) -> o = p.
  Proof.
    unfold en_stop. destruct (es_vars s).
    - intros H. apply rbind_ok in H. destruct H as [a [_ H]]. apply rbind_ok in H. destruct H as [i [_ H]].
      apply rbind_ok in H. destruct H as [y [_ H]]. injection H as <- _. auto.
    - intros H. injection H as <- _. auto.
  Qed.

  Theorem session_good s qs :
    en_session (xm F) ideal (xv nd) vars s qs -> Forall good_req qs.
  Proof.
    induction 1 as [|s qs q resp km s' out Hs IH Hin Hh E]; [constructor; simpl; auto|].
    destruct out as [q'|e]; [|auto]. constructor; [|auto].
    pose proof (en_reach_data _ _ _ _ _ _ (session_reach _ _ _ _ _ _ Hs)) as (Ef & _ & En & _).
    destruct q as [i0 n0|mi0 c0|o0 x0].
    - destruct resp as [d|]; [|discriminate]. cbn [en_iterate] in E.
      destruct (initial_exact F nd (length nd) HFlen eq_refl km d s s' q') as (n & np & mi & c & Eni & Enp & _ & _ & _ & _ & _ & _ & _ & -> & Hreq & _); auto.
      eapply good_of_spec; eauto.
      + destruct (Hh d eq_refl) as [Hv _]. simpl in Hv.
        destruct (initial_validation d) as [[Hd _] _]. destruct (Hd Hv) as (ni & np' & zi & zp & E1 & E2 & E3 & E4 & E5 & E6).
        rewrite E1 in Eni. simpl in Eni. congruence.
      + apply rvle_refl.
    - destruct resp as [d|]; [|discriminate]. cbn [en_iterate] in E.
      destruct (Hh d eq_refl) as (Hv & Hback & Hch).
      rewrite Forall_forall in IH. pose proof (IH _ Hin) as (Hl0 & (pts & Epts & Hpts) & Hm1 & Hm2 & _ & _).
      destruct (d_step_back d) as [[]|] eqn:Esb.
      + destruct (Hback eq_refl) as (mi1 & c1 & Hin1 & B1 & B2 & B3 & B4 & B5).
        destruct (en_back_ok _ _ _ _ _ _ E Esb) as (zs & lbs & ubs & n & ds & mi & E1 & E2 & E3 & E4 & E5 & _ & _ & ->).
        pose proof (IH _ Hin1) as G. simpl in G |- *.
        rewrite B1 in E1. rewrite B2 in E2. rewrite B3 in E3. rewrite B4 in E4.
        injection E1 as <-. injection E2 as <-. injection E3 as <-. injection E4 as <-. exact G.
      + (* forward *)
        destruct (en_forward_ok _ _ _ _ _ _ E Esb) as (i & pv & n & Ei & Ep & _).
        assert (Hpx : exists p, pv = xv p /\ rvle id p /\ rvle p nd).
        { rewrite Epts in Ep. apply py_nth_In in Ep. apply in_map_iff in Ep. destruct Ep as (p & <- & Hp).
          rewrite Forall_forall in Hpts. destruct (Hpts p Hp). eauto. }
        destruct Hpx as (p & -> & Hp1 & Hp2).
        destruct (forward_exact F nd (length nd) HFlen eq_refl km c0 d s s' q' p i) as
          [(n1 & _ & _ & Hst & _)|(n1 & n' & lb & ub & ids & mi & c' & El & Hn & Hn' & El' & Elb & Eub & Hinc & Hids & -> & Hreq & _)]; auto.
        * apply (rvle_len _ _ Hp2).
        * intros lb. apply py_nth_mat; auto.
        * intros ub. apply py_nth_mat; auto.
        * destruct (en_stop_is_stop _ _ _ Hst) as (o & x & ->). apply en_stop_obj in Hst. simpl. eauto.
        * apply (good_of_spec p n' (fun j => In j ids)); auto.
          destruct (d_change d) as [[]|] eqn:Ech; try rewrite Ech in Hn'; cbn in Hn'; [|lia|lia].
          destruct (Hch eq_refl eq_refl) as (m & Em & Hm). rewrite Em in Hn'. injection Hn' as <-. auto.
      + unfold en_handle_request in E. rewrite Esb in E. discriminate.
    - cbn [en_iterate] in E. injection E as <- <-. rewrite Forall_forall in IH. auto.
  Qed.
End Box.

(** ** A concrete exact session, used to show that hypotheses are met. *)
Section Demo.
  Local Open Scope R_scope.
  Definition dF : list (list R) := [[0; 2]; [1; 1]; [2; 0]].
  Definition dnd : list R := [2; 2].
  Definition dV : list (list XR) := [[Fin 10]; [Fin 11]; [Fin 12]].
  Definition dd0 : en_dict XR := MkED (Some (VInt 2)) (Some (VInt 2)) None None None None None None None None None.
  Definition dd1 : en_dict XR := MkED None None (Some 0%Z) (Some false) (Some false) None None None None None None.
  Definition ds0 := en_init (xm dF) (xv [0;0]) (xv dnd) (Some dV).

  (** Any oracle that returns the first rows is a legal clustering outcome as
      long as it is asked for fewer clusters than rows. *)
  Definition dkm' : @km_oracle XR := fun rows n =>
    if (n <? Z.of_nat (length rows))%Z && (0 <=? n)%Z then Ok (seq 0 (Z.to_nat n)) else Raise ValueErr.
  Lemma dkm_total : km_total dkm'.
  Proof.
    split.
    - intros rows n cl H. unfold dkm' in H. destruct (Z.ltb_spec n (Z.of_nat (length rows))); [|discriminate].
      destruct (Z.leb_spec 0 n); [|discriminate]. injection H as <-. rewrite seq_length. split; [lia|].
      apply Forall_forall. intros i Hi. apply in_seq in Hi. lia.
    - intros rows n Hn. unfold dkm'. destruct (Z.ltb_spec n (Z.of_nat (length rows))); [|lia].
      destruct (Z.leb_spec 0 n); [|lia]. simpl. eauto.
  Qed.

  Lemma dF_len : Forall (fun r => length r = 2%nat) dF. Proof. repeat constructor. Qed.
  Lemma dF_below : Forall (fun r => rvle r dnd) dF.
  Proof. repeat constructor; lra. Qed.
  Lemma dF_mnd : @mutually_nondominated XR (xm dF).
  Proof.
    intros a b Ha Hb [H1 H2].
    apply in_map_iff in Ha. destruct Ha as (ra & <- & Ha). apply in_map_iff in Hb. destruct Hb as (rb & <- & Hb).
    apply xvle_iff in H1. apply H2. apply xvle_iff. clear H2.
    simpl in Ha, Hb. destruct Ha as [<-|[<-|[<-|[]]]], Hb as [<-|[<-|[<-|[]]]];
      inversion H1 as [|? ? ? ? A B]; subst; inversion B; subst; try (apply rvle_refl); lra.
  Qed.

  (** First request, forward answer, forward answer, stop. *)
  Lemma demo :
    exists s1 mi1 c1 s2 mi2 c2 s3 o x p,
      en_iterate dkm' (en_start ds0) (Some dd0) ds0 = (s1, Ok (EReq mi1 c1)) /\
      en_iterate dkm' (EReq mi1 c1) (Some dd1) s1 = (s2, Ok (EReq mi2 c2)) /\
      en_iterate dkm' (EReq mi2 c2) (Some dd1) s2 = (s3, Ok (EStop o x)) /\
      fwd dF dnd (xv [0;0]) (Some dV) s1 (EReq mi1 c1) /\
      fwd dF dnd (xv [0;0]) (Some dV) s2 (EReq mi2 c2) /\
      en_reach (xm dF) (xv [0;0]) (xv dnd) (Some dV) s1 [EReq mi1 c1; en_start ds0] /\
      is_matrix 2 (ec_lb c1) /\ is_matrix 2 (ec_ub c1) /\
      nth_error (ec_points c1) 0 = Some (xv p) /\ length p = 2%nat /\
      ec_left c1 = 2%Z /\ ec_left c2 = 1%Z /\ es_npoints s1 = Some 2%Z /\
      length (ec_points c1) = 2%nat /\ en_validate_req mi1 dd1 = Ok tt.
  Proof.
    destruct (inv_init dF dnd (xv [0;0]) (Some dV) dF_len eq_refl) with (km := dkm') (d := dd0) as (s1 & mi1 & c1 & E1 & HI1);
    try solve [discriminate | apply dF_below | apply dF_mnd | apply dkm_total | reflexivity | intros V HV; injection HV as <-; reflexivity].
    destruct (first_number_of_points dF dnd 2 (xv [0;0]) (Some dV) dkm' dd0 ds0 s1 (xv [0;0]) (xv dnd) (EReq mi1 c1)) as (mi & c & np & Eq & Enp & Hlen); auto.
    { apply dF_len. } { apply dkm_total. }
    injection Eq as <- <-. injection Enp as <-. change (Z.min 2 (Z.of_nat (length dF))) with 2%Z in Hlen.
    assert (Hlen' : length (ec_points c1) = 2%nat) by lia.
    assert (Hans : fwd_answer c1 dd1).
    { repeat split; auto. exists 0%Z. split; auto. rewrite Hlen. lia. }
    assert (Hf1 : fwd dF dnd (xv [0;0]) (Some dV) s1 (EReq mi1 c1)) by (eapply fwd_init; eauto using dkm_total; reflexivity).
    assert (Hl1 : es_left s1 = Some 2%Z /\ es_npoints s1 = Some 2%Z).
    { cbn [en_iterate en_start] in E1. destruct (en_initial_ok _ _ _ _ _ E1) as (ni & np & E & E' & -> & _).
      injection E as <-. injection E' as <-. auto. }
    destruct Hl1 as [Hl1 Hnp1].
    assert (Hc1 : ec_left c1 = 2%Z).
    { destruct (issued_request _ _ _ _ _ _ _ E1) as (X & _). congruence. }
    pose proof HI1 as (_ & _ & _ & _ & p0 & n0 & zb & El & Hn & Ecl & Ep & Hpnd & Hzne & Hzb & Epts & Ebd & Hids).
    destruct (inv_step dF dnd (Some dV) dF_len eq_refl) with (km := dkm') (mi := mi1) (c := c1) (d := dd1) (s := s1) as (s2 & [(o & x & E2)|(mi2 & c2 & E2 & HI2 & _)]); auto;
    try solve [discriminate | apply dF_below | apply dF_mnd | apply dkm_total | reflexivity | intros V HV; injection HV as <-; reflexivity].
    { exfalso. cbn [en_iterate] in E2. destruct (en_forward_ok _ _ _ _ _ _ E2 eq_refl) as (i & p & n & _ & _ & E & [(Hle & _)|(_ & lb & ub & ri & ch & n' & _ & _ & _ & _ & _ & _ & Hn')]).
      - rewrite Hl1 in E. injection E as <-. lia.
      - destruct Hn' as (? & ? & ? & ? & ? & ? & ? & ? & ? & _ & _ & _ & _ & _ & _ & _ & _ & Eq). discriminate. }
    assert (Hl2 : es_left s2 = Some 1%Z).
    { cbn [en_iterate] in E2. destruct (en_forward_ok _ _ _ _ _ _ E2 eq_refl) as (i & p & n & _ & _ & E & [(Hle & _)|(_ & lb & ub & ri & ch & n' & _ & _ & _ & Ec & En' & -> & _)]).
      - rewrite Hl1 in E. injection E as <-. lia.
      - injection Ec as <-. rewrite Hl1 in E. injection E as <-. subst n'. reflexivity. }
    assert (Hc2 : ec_left c2 = 1%Z).
    { destruct (issued_request _ _ _ _ _ _ _ E2) as (X & _). congruence. }
    assert (Hf2 : fwd dF dnd (xv [0;0]) (Some dV) s2 (EReq mi2 c2)) by (eapply fwd_step; eauto using dkm_total).
    assert (Hb : is_matrix 2 (ec_lb c1) /\ is_matrix 2 (ec_ub c1)).
    { destruct (en_bounds_ok _ _ _ _ _ Ebd) as (F1 & F2 & _). split.
      + apply Forall_forall. intros lb Hlb. destruct (Forall2_In_r _ _ _ _ F1 Hlb) as (a & _ & ub & Hb).
        destruct (en_bounds1_ok _ _ _ _ _ Hb) as (_ & ? & _). auto.
      + apply Forall_forall. intros ub Hub. destruct (Forall2_In_r _ _ _ _ F2 Hub) as (a & _ & lb & Hb).
        destruct (en_bounds1_ok _ _ _ _ _ Hb) as (_ & _ & ? & _). auto. }
    assert (Hp : exists p, nth_error (ec_points c1) 0 = Some (xv p) /\ length p = 2%nat).
    { rewrite Epts in Hlen'. rewrite xm_length, map_length in Hlen'.
      destruct (nth_error zb 0) as [z|] eqn:Ez; [|apply nth_error_None in Ez; lia].
      exists (step_towards n0 p0 z). rewrite Epts, xm_nth, nth_error_map, Ez. split; auto.
      apply nth_error_In in Ez. rewrite Forall_forall in Hzb. destruct (Hzb z Ez) as [_ Hz].
      rewrite step_towards_length by (symmetry; apply (rvle_len _ _ Hz)). rewrite (rvle_len _ _ Hpnd). reflexivity. }
    destruct Hp as (p & Hp & Hlp).
    (* second answer *)
    assert (Hans2 : fwd_answer c2 dd1).
    { repeat split; auto. exists 0%Z. split; auto.
      destruct HI2 as (_ & _ & _ & _ & q0 & m0 & zb2 & _ & _ & _ & _ & _ & Hne2 & _ & Epts2 & _).
      rewrite Epts2, xm_length, map_length. destruct zb2; [contradiction|]. cbn [length]. lia. }
    destruct (inv_step dF dnd (Some dV) dF_len eq_refl) with (km := dkm') (mi := mi2) (c := c2) (d := dd1) (s := s2) as (s3 & [(o & x & E3)|(mi3 & c3 & E3 & HI3 & _)]); auto;
    try solve [discriminate | apply dF_below | apply dF_mnd | apply dkm_total | reflexivity | intros V HV; injection HV as <-; reflexivity].
    2:{ exfalso. cbn [en_iterate] in E3. destruct (en_forward_ok _ _ _ _ _ _ E3 eq_refl) as (i & p' & n & _ & _ & E & [(Hle & _ & Hst)|(Hlt & _)]).
        - apply en_stop_is_stop in Hst. destruct Hst as (? & ? & ?). discriminate.
        - rewrite Hl2 in E. injection E as <-. lia. }
    exists s1, mi1, c1, s2, mi2, c2, s3, o, x, p.
    repeat (split; [solve [auto | tauto]|]).
    split.
    { apply (en_reach_step (xm dF) (xv [0;0]) (xv dnd) (Some dV) ds0 [en_start ds0] (en_start ds0) (Some dd0) dkm' s1 (Ok (EReq mi1 c1)));
        [constructor|left; reflexivity|intros d Hd; injection Hd as <-; reflexivity|exact E1]. }
    repeat (split; [solve [auto | tauto]|]).
    apply (valid_index_accepted (ec_points c1) mi1 dd1 0); auto.
    - destruct (issued_request _ _ _ _ _ _ _ E1) as (_ & _ & _ & X). auto.
    - rewrite Hlen'. simpl. lia.
  Qed.
End Demo.
