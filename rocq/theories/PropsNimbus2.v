(** * Properties of synchronous NIMBUS on data: which accepted answers are carried out
    (C93) and that a session can always be ended (C94).
    [nb_reach_p av p names mult ideal nadir s0 s qs]: after construction ([s0]) and
    some history the method object is in state [s] and has returned the requests (with
    their plots) [qs]; any request returned may be iterated at any time, unanswered or
    with any response its validator accepts; failing calls are part of the history. *)
From Coq Require Import ZArith String List Bool Lia Floats.
From Verif Require Import Num NumF64 F64Facts Py Np Spec NpFacts MNimbus SNimbus PNimbus PNimbus2 PNimbus4 PNimbus5 PNimbus6 PNimbus7 PNimbus8 MNimbusPlot SNimbusPlot PNimbusPlot SNimbus2 PNimbus9 PNimbus10 PropsNimbus PropsNimbusPlot.
Import ListNotations.

(** ** C93: an accepted answer is carried out exactly when it can be; otherwise the call
    raises, a ValueError for a classification that no data row honours and an
    IndexError for a single solution to continue with, and nothing is changed *)
Theorem C93_carried_out_iff :
  forall (N : NumOps) (L : OrdLaws N) (fin : N -> Prop), sign_exact fin ->
  forall (av : @asf_val N) k dn data decs closest ideal nadir start x0 s0 s qs q d,
  proper_asf fin av -> nan_on_nan_rows av ->
  nb_wf fin (PDisc k data decs closest) ideal nadir -> is_matrix dn decs -> (forall x, closest x < length data) ->
  nb_init av (PDisc k data decs closest) ideal nadir start x0 = Ok s0 ->
  nb_reach av (PDisc k data decs closest) ideal nadir s0 s qs ->
  In q qs -> awaits (bs_phase s) q -> nb_validate (PDisc k data decs closest) ideal nadir q d = Ok tt ->
  well_formed fin k q d ->
  (can_be_done data (bs_obj s) q d ->
     exists s' q', nb_iterate av (PDisc k data decs closest) ideal nadir q (Some d) s = (s', Ok q')) /\
  (~ can_be_done data (bs_obj s) q d ->
     nb_iterate av (PDisc k data decs closest) ideal nadir q (Some d) s = (s, Raise (refusal q))).
Proof.
  intros N L fin [Hsub Hfin] av k dn data decs closest ideal nadir start x0 s0 s qs q d HA HN HW HD HC H0 HR Hin Haw HV Hwf.
  pose proof (inv_reach _ _ _ _ _ _ _ _ _ H0 HR) as HI. destruct HI as (HM & _ & HG).
  rewrite Forall_forall in HG. specialize (HG _ Hin).
  assert (AT : forall a row ref, exists v, av a row ref = Ok v) by (intros a row ref; destruct (HA a row ref) as (v & Hv & _); eauto).
  assert (AF : forall a row ref v, Forall fin row -> av a row ref = Ok v -> nisnan v = false).
  { intros a row ref v F Hv. destruct (HA a row ref) as (v' & Hv' & G). assert (v' = v) by congruence. subst. auto. }
  destruct (bs_phase s) eqn:Ep, q as [f|sols os|sols os|sols os|x f]; cbn in Haw; try tauto.
  - destruct Hwf as (cl & lv & v & n & Ecl & Hcl & Elv & Flv & Ev & En).
    apply (validate_cls_iff _ ideal nadir d) in HV as (clx & lv' & ns & E1 & E2 & E3 & _ & Hl & _).
    assert (E2' : lv' = lv) by congruence. subst lv'. cbn [p_nobj] in Hl.
    assert (HH : nb_handle_cls av (PDisc k data decs closest) ideal nadir s d =
      nb_new_solutions av (PDisc k data decs closest) ideal nadir s n lv (where_cls CImprove cl) (where_cls CImproveUntil cl) (where_cls CAccept cl) (where_cls CImpairUntil cl) (where_cls CFree cl)).
    { unfold nb_handle_cls. rewrite Ecl, Ev, Elv. cbn [key rbind]. rewrite En. reflexivity. }
    unfold nb_iterate, sbind, sget, lift, resp_, smod, sret. rewrite Ep, HH. split.
    + intros (cl' & lv' & g & F1 & F2 & Hg & Hh). assert (cl' = cl) by congruence. assert (lv' = lv) by congruence. subst cl' lv'.
      destruct (new_solutions_done L fin Hsub av k data decs closest ideal nadir HW AT AF s cl lv n g HM Hcl Hl Flv Hg Hh) as (q & ->). eauto.
    + intros Hno. rewrite (new_solutions_refused L fin Hsub av k data decs closest ideal nadir HW AT HN s cl lv n HM Hcl Hl Flv); [reflexivity|].
      intros g Hg Hh. apply Hno. exists cl, lv, g. auto.
  - split; [|cbn; tauto]. intros _. exact (proj2 (C36_save N av _ ideal nadir start x0 s0 s qs sols os d H0 HR Ep Hin HV)).
  - destruct Hwf as (v & n & Ev & En). pose proof HV as HV'. cbn [nb_validate] in HV'. pose proof HV' as HV2. unfold nb_validate_inter in HV2.
    destruct (bd_indices d) as [ix|] eqn:Ei; [|discriminate]. clear HV2.
    unfold nb_iterate, sbind, sget, lift, resp_, smod, sret. rewrite Ep. split.
    + intros (ix' & E & H1). assert (ix' = ix) by congruence. subst ix'.
      destruct (handle_inter_done L fin av k dn data decs closest ideal nadir HW HD HC AT AF s sols os d ix v n HG HV' Ei Ev En H1) as (q & E1). rewrite E1.
      destruct (handle_inter_shape _ _ _ _ _ _ _ _ _ E1 HG) as [(a & b & -> & _)| ->]; eauto.
    + intros Hno. assert (length ix = 1) by (destruct (Nat.eq_dec (length ix) 1); auto; exfalso; apply Hno; exists ix; auto).
      destruct ix as [|z [|]]; try discriminate.
      rewrite (handle_inter_refused av k data decs closest ideal nadir s sols os d z v n HG HV' Ei Ev En). reflexivity.
  - split; [|cbn; tauto]. intros _. exact (proj2 (C36_most_preferred N av _ ideal nadir start x0 s0 s qs sols os d H0 HR Ep Hin HV)).
Qed.
Print Assumptions C93_carried_out_iff.

(** The hypotheses are met, by answers that can be carried out and by answers that cannot
    (a classification and a single solution). *)
Definition b_refused : nb_dict F64 := dcls [CImpairUntil; CAccept] [2; 0]%float 1.
Example C93_hypotheses_met :
  sign_exact (N:=F64) ffin /\ proper_asf ffin bav /\ nan_on_nan_rows bav /\ nb_wf ffin bP bI bN /\ is_matrix 2 bD /\
  (forall x : list F64, (fun _ => 1) x < length bO) /\
  exists s0 s qs f s2 qs2 sols objs,
    nb_init bav bP bI bN None [] = Ok s0 /\ nb_reach bav bP bI bN s0 s qs /\ In (QClass f) qs /\ awaits (bs_phase s) (QClass (N:=F64) f) /\
    nb_validate bP bI bN (QClass f) b_classify = Ok tt /\ well_formed ffin 2 (QClass f) b_classify /\ can_be_done bO (bs_obj s) (QClass f) b_classify /\
    nb_validate bP bI bN (QClass f) b_refused = Ok tt /\ well_formed ffin 2 (QClass f) b_refused /\ ~ can_be_done bO (bs_obj s) (QClass f) b_refused /\
    nb_reach bav bP bI bN s0 s2 qs2 /\ In (QInter sols objs) qs2 /\ awaits (bs_phase s2) (QInter (N:=F64) sols objs) /\
    nb_validate bP bI bN (QInter sols objs) (dinter [0; 3]%Z 2) = Ok tt /\ can_be_done bO (bs_obj s2) (QInter sols objs) (dinter [0; 3]%Z 2) /\
    nb_validate bP bI bN (QInter sols objs) (dinter [1]%Z 2) = Ok tt /\ ~ can_be_done bO (bs_obj s2) (QInter sols objs) (dinter [1]%Z 2).
Proof.
  split; [exact F64_sign_exact|]. split; [exact bav_proper|]. split; [exact bav_nan|]. split; [exact bP_wf|]. split; [repeat constructor|]. split; [intros; cbn; lia|].
  destruct (b_reach 0) as (s0 & I0 & R0 & Q0); [lia|]. destruct (b_reach 2) as (t & I2 & R2 & Q2); [lia|]. assert (t = s0) by congruence. subst t.
  exists s0, (b_state 0), (b_reqs 0), (match b_req 0 with QClass f => f | _ => [] end), (b_state 2), (b_reqs 2),
    (match b_req 2 with QInter a _ => a | _ => [] end), (match b_req 2 with QInter _ b => b | _ => [] end).
  split; [exact I0|]. split; [exact R0|]. split; [left; vm_cast_no_check (eq_refl (b_req 0))|]. split; [vm_compute; exact I|].
  split; [vm_compute; reflexivity|]. split; [exists [CImprove; CImpairUntil], [0; 2]%float, (VInt 4), 4%Z; repeat split; repeat constructor|].
  assert (E : bs_obj (b_state 0) = [4; 0]%float) by (vm_cast_no_check (@eq_refl (list F64) [4; 0]%float)). rewrite E.
  split.
  { exists [CImprove; CImpairUntil], [0; 2]%float, [1; 2]%float. split; [reflexivity|]. split; [reflexivity|]. split; [right; left; reflexivity|].
    intros [|[|[|i]]] c x Hc Hx; try discriminate; injection Hc as <-; injection Hx as <-; eexists; (split; [reflexivity|vm_compute; reflexivity]). }
  split; [vm_compute; reflexivity|]. split; [exists [CImpairUntil; CAccept], [2; 0]%float, (VInt 1), 1%Z; repeat split; repeat constructor|].
  split.
  { intros (cl & lv & f & E1 & E2 & Hf & Hh). injection E1 as <-. injection E2 as <-.
    assert (H0 := Hh 0 CImpairUntil). assert (H1 := Hh 1 CAccept). cbn [nth_error] in H0, H1.
    repeat (destruct Hf as [<-|Hf]; [try (destruct (H0 _ eq_refl eq_refl) as (y & Ey & G); injection Ey as <-; vm_compute in G; discriminate G);
      destruct (H1 _ eq_refl eq_refl) as (y & Ey & G); injection Ey as <-; vm_compute in G; discriminate G|]). exact Hf. }
  split; [exact R2|]. split; [left; vm_cast_no_check (eq_refl (b_req 2))|]. split; [vm_compute; exact I|].
  split; [vm_compute; reflexivity|]. split; [exists [0; 3]%Z; split; [reflexivity|discriminate]|]. split; [vm_compute; reflexivity|].
  intros (ix & Ex & H). injection Ex as <-. apply H. reflexivity.
Qed.

(** ** C94: a session can always be ended *)

(** On data at most four more answers are needed, whatever has happened before. *)
Theorem C94_can_finish :
  forall (N : NumOps) (L : OrdLaws N) (fin : N -> Prop), sign_exact fin ->
  forall (av : @asf_val N) k data decs closest names mult ideal nadir start x0 s0 s qs,
  proper_asf fin av -> nb_wf fin (PDisc k data decs closest) ideal nadir -> plot_wf (PDisc k data decs closest) names mult ideal nadir ->
  nb_init av (PDisc k data decs closest) ideal nadir start x0 = Ok s0 ->
  nb_reach_p av (PDisc k data decs closest) names mult ideal nadir s0 s qs -> bs_phase s <> PEnd ->
  exists q pl n s' x f, In (q, pl) qs /\ n <= 4 /\
    leads av (PDisc k data decs closest) names mult ideal nadir n s q s' (QStop x f) /\
    matches (PDisc k data decs closest) x f /\ bs_phase s' = PEnd.
Proof.
  intros N L fin [Hsub Hfin] av k data decs closest names mult ideal nadir start x0 s0 s qs HA HW HP H0 HR Ep.
  assert (AT : forall a row ref, exists v, av a row ref = Ok v) by (intros a row ref; destruct (HA a row ref) as (v & Hv & _); eauto).
  assert (AF : forall a row ref v, Forall fin row -> av a row ref = Ok v -> nisnan v = false).
  { intros a row ref v F Hv. destruct (HA a row ref) as (v' & Hv' & G). assert (v' = v) by congruence. subst. auto. }
  destruct (finish_data L fin Hsub av k data decs closest names mult ideal nadir HW HP AT AF start x0 s0 s qs H0 HR Ep) as (q & n & s' & x & f & (pl & Hin) & G).
  exists q, pl, n, s', x, f. split; auto.
Qed.
Print Assumptions C94_can_finish.

(** With a continuous problem the same holds once new solutions have been computed
    (the classification depends on the solver): three answers. *)
Theorem C94_can_finish_any_problem :
  forall (N : NumOps) (av : @asf_val N) p names mult ideal nadir start x0 s0 s qs,
  plot_wf p names mult ideal nadir -> nb_init av p ideal nadir start x0 = Ok s0 ->
  nb_reach_p av p names mult ideal nadir s0 s qs -> bs_phase s <> PEnd -> bs_phase s <> PClassify ->
  exists q pl n s' x f, In (q, pl) qs /\ n <= 3 /\ leads av p names mult ideal nadir n s q s' (QStop x f) /\ matches p x f /\ bs_phase s' = PEnd.
Proof.
  intros N av p names mult ideal nadir start x0 s0 s qs HP H0 HR E1 E2.
  destruct (finish_rest av p names mult ideal nadir HP start x0 s0 s qs H0 HR E1 E2) as (q & n & s' & x & f & (pl & Hin) & G).
  exists q, pl, n, s', x, f. split; auto.
Qed.
Print Assumptions C94_can_finish_any_problem.

(** Every archived solution can still be made the final one, on data with at most five
    more answers. *)
Theorem C94_archived_can_be_chosen :
  forall (N : NumOps) (L : OrdLaws N) (fin : N -> Prop), sign_exact fin ->
  forall (av : @asf_val N) k data decs closest names mult ideal nadir start x0 s0 s qs i x f,
  proper_asf fin av -> nb_wf fin (PDisc k data decs closest) ideal nadir -> plot_wf (PDisc k data decs closest) names mult ideal nadir ->
  nb_init av (PDisc k data decs closest) ideal nadir start x0 = Ok s0 ->
  nb_reach_p av (PDisc k data decs closest) names mult ideal nadir s0 s qs -> bs_phase s <> PEnd ->
  nth_error (bs_asols s) i = Some x -> nth_error (bs_aobjs s) i = Some f ->
  exists q pl n s', In (q, pl) qs /\ n <= 5 /\
    leads av (PDisc k data decs closest) names mult ideal nadir n s q s' (QStop x f) /\ bs_phase s' = PEnd.
Proof.
  intros N L fin [Hsub Hfin] av k data decs closest names mult ideal nadir start x0 s0 s qs i x f HA HW HP H0 HR Ep Hx Hf.
  assert (AT : forall a row ref, exists v, av a row ref = Ok v) by (intros a row ref; destruct (HA a row ref) as (v & Hv & _); eauto).
  assert (AF : forall a row ref v, Forall fin row -> av a row ref = Ok v -> nisnan v = false).
  { intros a row ref v F Hv. destruct (HA a row ref) as (v' & Hv' & G). assert (v' = v) by congruence. subst. auto. }
  destruct (pick_data L fin Hsub av k data decs closest names mult ideal nadir HW HP AT AF start x0 s0 s qs i x f H0 HR Ep Hx Hf) as (q & n & s' & (pl & Hin) & G).
  exists q, pl, n, s'. split; auto.
Qed.
Print Assumptions C94_archived_can_be_chosen.

(** The hypotheses are met: the session of PropsNimbusPlot, also with two solutions archived. *)
Example C94_hypotheses_met :
  sign_exact (N:=F64) ffin /\ proper_asf ffin bav /\ nb_wf ffin bP bI bN /\ plot_wf bP bnames [] bI bN /\
  (forall t, t <= 6 -> exists s0, nb_init bav bP bI bN None [] = Ok s0 /\ nb_reach_p bav bP bnames [] bI bN s0 (fst (fst (b_runp t))) (snd (b_runp t))) /\
  map (fun t => phase_rank (bs_phase (fst (fst (b_runp t))))) (seq 0 7) = [0; 1; 2; 1; 2; 3; 4] /\
  map (fun t => length (bs_asols (fst (fst (b_runp t))))) (seq 0 7) = [0; 0; 2; 2; 2; 2; 2].
Proof.
  split; [exact F64_sign_exact|]. split; [exact bav_proper|]. split; [exact bP_wf|]. split; [exact bP_plot_wf|].
  split; [intros t Ht; destruct (b_reach_p t Ht) as (s0 & A & B & _); eauto|]. split; vm_compute; reflexivity.
Qed.

(** Answering only the request returned last is not enough: after half an intermediate
    solution was asked for and the empty list "saved", the last request is
    [QInter [] []], whose accepted answers all fail (C91_nothing_to_choose_from); the
    session goes on only because an earlier request can be answered again. *)
Theorem C94_last_request_may_be_dead : exists s0 s qs pl,
  nb_init bav bP bI bN None [] = Ok s0 /\ nb_reach_p bav bP bnames [] bI bN s0 s ((QInter [] [], pl) :: qs) /\ bs_phase s <> PEnd /\
  forall n s' q', leads bav bP bnames [] bI bN n s (QInter [] []) s' q' -> n = 0.
Proof.
  destruct (h_check_ok _ h_ok) as (s & qs & E & Ep).
  destruct (demo_p_reach bav bP bnames [] bI bN None [] h_ans _ E) as (s0 & I0 & R & (pl & Q)). cbn [fst snd] in *.
  assert (Hd : exists pl0 qs0, qs = (QInter [] [], pl0) :: qs0).
  { clear - E. assert (G : forall o : option (nb_state F64 * nb_request F64 * list (nb_request F64 * option (nb_plot F64))),
      match o with Some (_, _, (QInter [] [], _) :: _) => True | _ => False end -> forall s qs, o = Some (s, QInter [] [], qs) -> exists pl0 qs0, qs = (QInter [] [], pl0) :: qs0).
    { intros o H s' qs' ->. destruct qs' as [|[[| |[|] [|]| |] pl0] qs0]; try contradiction. eauto. }
    eapply G; [|exact E]. vm_compute. exact I. }
  destruct Hd as (pl0 & qs0 & ->). exists s0, s, qs0, pl0. split; [exact I0|]. split; [exact R|]. split; [congruence|].
  intros n s' q' H. inversion H as [|n1 s1 q1 d s2 q2 pl2 s3 q3 V G1 G2]; [reflexivity|]. subst.
  rewrite (C91_nothing_to_choose_from F64 bav bP bnames [] bI bN None [] s0 s _ pl0 d bP_plot_wf I0 R (or_introl eq_refl) Ep V) in G1. discriminate.
Qed.
Print Assumptions C94_last_request_may_be_dead.
