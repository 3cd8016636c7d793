(** * Properties of synchronous NIMBUS (C29-C37).
    [nb_reach av p ideal nadir s0 s qs]: after construction ([s0]) and some
    history the method object is in state [s] and has issued the requests [qs];
    any issued request may be iterated at any time, unanswered or with any
    response its validator accepts; failing calls are part of the history. *)
From Coq Require Import ZArith List Bool Lia Reals Lra Floats.
From Verif Require Import Num NumXR NumF64 F64Facts Py Np Spec NpFacts XRFacts MNimbus SNimbus PNimbus PNimbus2 PNimbus3 PNimbus4 PNimbus5 PNimbus6 PNimbus7 PNimbus8.
Import ListNotations.

(** ** C29: the protocol *)
Theorem C29_wrong_request :
  forall (N : NumOps) (av : @asf_val N) p ideal nadir s q resp,
  bs_phase s <> PEnd -> ~ awaits (bs_phase s) q -> nb_iterate av p ideal nadir q resp s = (s, Raise MethodExn).
Proof. intros. apply iter_wrong; auto. Qed.
Print Assumptions C29_wrong_request.

Theorem C29_protocol :
  forall (N : NumOps) (av : @asf_val N) p ideal nadir start x0 s0 s qs q resp s' out,
  nb_init av p ideal nadir start x0 = Ok s0 -> nb_reach av p ideal nadir s0 s qs -> In q qs ->
  (forall d, resp = Some d -> nb_validate p ideal nadir q d = Ok tt) ->
  nb_iterate av p ideal nadir q resp s = (s', out) ->
  (forall e, out = Raise e -> s' = s) /\
  (forall q', out = Ok q' -> advances (bs_phase s) q' (bs_phase s')) /\
  bs_phase s0 = PClassify.
Proof.
  intros N av p ideal nadir start x0 s0 s qs q resp s' out H0 HR Hin HV H.
  destruct (inv_step av p ideal nadir s qs q resp s' out (inv_reach _ _ _ _ _ _ _ _ _ H0 HR) Hin HV H) as (_ & G1 & G2 & _).
  repeat split; auto. apply (inv_init _ _ _ _ _ _ _ H0).
Qed.
Print Assumptions C29_protocol.

Theorem C29_end_is_absorbing :
  forall (N : NumOps) (av : @asf_val N) p ideal nadir s q resp,
  bs_phase s = PEnd -> nb_iterate av p ideal nadir q resp s = (s, Ok q).
Proof. intros. apply iter_end; auto. Qed.
Print Assumptions C29_end_is_absorbing.

(** The hypotheses are met in every phase: a session on the data (0,4),(1,2),(2,1),(4,0). *)
Example C29_hypotheses_met : exists s0 s1 s2 s3 s4 s5,
  nb_init bav bP bI bN None [] = Ok s0 /\
  (exists qs q, nb_reach bav bP bI bN s0 s1 qs /\ In q qs /\ awaits PArchive q) /\ bs_phase s1 = PArchive /\
  (exists qs q, nb_reach bav bP bI bN s0 s2 qs /\ In q qs /\ awaits PIntermediate q) /\ bs_phase s2 = PIntermediate /\
  (exists qs q, nb_reach bav bP bI bN s0 s3 qs /\ In q qs /\ awaits PArchive q) /\ bs_phase s3 = PArchive /\
  (exists qs q, nb_reach bav bP bI bN s0 s4 qs /\ In q qs /\ awaits PPreferred q) /\ bs_phase s4 = PPreferred /\
  (exists qs q, nb_reach bav bP bI bN s0 s5 qs /\ In q qs /\ awaits PClassify q) /\ bs_phase s5 = PClassify /\
  length (bs_aobjs s5) = 2.
Proof.
  destruct (b_reach 1) as (s0 & I0 & R1 & Q1); [lia|].
  destruct (b_reach 2) as (t2 & I2 & R2 & Q2); [lia|]. destruct (b_reach 3) as (t3 & I3 & R3 & Q3); [lia|].
  destruct (b_reach 5) as (t4 & I4 & R4 & Q4); [lia|]. destruct (b_reach 6) as (t5 & I5 & R5 & Q5); [lia|].
  assert (E : t2 = s0 /\ t3 = s0 /\ t4 = s0 /\ t5 = s0) by (repeat split; congruence).
  destruct E as (-> & -> & -> & ->).
  exists s0, (b_state 1), (b_state 2), (b_state 3), (b_state 5), (b_state 6).
  split; [exact I0|].
  split; [exists (b_reqs 1), (b_req 1); split; [exact R1|split; [exact Q1|vm_compute; exact I]]|]. split; [vm_compute; reflexivity|].
  split; [exists (b_reqs 2), (b_req 2); split; [exact R2|split; [exact Q2|vm_compute; exact I]]|]. split; [vm_compute; reflexivity|].
  split; [exists (b_reqs 3), (b_req 3); split; [exact R3|split; [exact Q3|vm_compute; exact I]]|]. split; [vm_compute; reflexivity|].
  split; [exists (b_reqs 5), (b_req 5); split; [exact R4|split; [exact Q4|vm_compute; exact I]]|]. split; [vm_compute; reflexivity|].
  split; [exists (b_reqs 6), (b_req 6); split; [exact R5|split; [exact Q5|vm_compute; exact I]]|]. split; vm_compute; reflexivity.
Qed.

(** ** C30: the archive *)
Theorem C30_archive_grows :
  forall (N : NumOps) (av : @asf_val N) p ideal nadir start x0 s0 s qs s' qs',
  nb_init av p ideal nadir start x0 = Ok s0 -> nb_reach av p ideal nadir s0 s qs -> nb_later av p ideal nadir s qs s' qs' ->
  exists e1 e2, bs_asols s' = bs_asols s ++ e1 /\ bs_aobjs s' = bs_aobjs s ++ e2.
Proof. intros. eapply later_prefix; eauto. Qed.
Print Assumptions C30_archive_grows.

Theorem C30_archive_aligned :
  forall (N : NumOps) (av : @asf_val N) p ideal nadir start x0 s0 s qs,
  nb_init av p ideal nadir start x0 = Ok s0 -> nb_reach av p ideal nadir s0 s qs ->
  Forall2 (matches p) (bs_asols s) (bs_aobjs s).
Proof. intros. eapply (inv_reach av p ideal nadir) in H0; eauto. apply H0. Qed.
Print Assumptions C30_archive_aligned.

(** Every solution shown in any request comes with its own objective vector. *)
Theorem C30_shown_aligned :
  forall (N : NumOps) (av : @asf_val N) p ideal nadir start x0 s0 s qs q,
  nb_init av p ideal nadir start x0 = Ok s0 -> nb_reach av p ideal nadir s0 s qs -> In q qs ->
  match q with
  | QClass f => exists x, matches p x f
  | QSave sols objs | QInter sols objs | QPref sols objs => Forall2 (matches p) sols objs
  | QStop x f => matches p x f
  end.
Proof.
  intros N av p ideal nadir start x0 s0 s qs q H0 HR Hin. destruct (inv_reach _ _ _ _ _ _ _ _ _ H0 HR) as (_ & _ & F).
  rewrite Forall_forall in F. exact (F _ Hin).
Qed.
Print Assumptions C30_shown_aligned.

(** ** C31: saving *)
Theorem C31_nothing_lost :
  forall (N : NumOps) (av : @asf_val N) p ideal nadir start x0 s0 s qs sols objs d,
  nb_init av p ideal nadir start x0 = Ok s0 -> nb_reach av p ideal nadir s0 s qs ->
  bs_phase s = PArchive -> In (QSave sols objs) qs -> nb_validate p ideal nadir (QSave sols objs) d = Ok tt ->
  exists ix ss oo s', bd_indices d = Some ix /\ rows_at sols ix ss /\ rows_at objs ix oo /\
    nb_iterate av p ideal nadir (QSave sols objs) (Some d) s =
      (s', Ok (QInter ((bs_asols s ++ ss) ++ others sols ix) ((bs_aobjs s ++ oo) ++ others objs ix))) /\
    bs_asols s' = bs_asols s ++ ss /\ bs_aobjs s' = bs_aobjs s ++ oo /\ bs_sol s' = bs_sol s /\ bs_obj s' = bs_obj s.
Proof.
  intros N av p ideal nadir start x0 s0 s qs sols objs d H0 HR Hp Hin HV.
  pose proof (C30_shown_aligned _ _ _ _ _ _ _ _ _ _ _ H0 HR Hin) as HF. cbn in HF.
  destruct (nb_iterate av p ideal nadir (QSave sols objs) (Some d) s) as [s' out] eqn:E.
  apply iter_save in E; auto; [|intros d' E'; injection E' as <-; exact HV].
  destruct E as [(E & _)|(d' & ix & fs & fo & Ed & Hix & Rs & Ro & -> & ->)]; [discriminate|]. injection Ed as <-.
  exists ix, fs, fo, (MkBS (bs_sol s) (bs_obj s) (bs_asols s ++ fs) (bs_aobjs s ++ fo) PIntermediate). repeat (split; [solve [auto]|]). auto.
Qed.
Print Assumptions C31_nothing_lost.

Example C31_hypotheses_met : exists s0 s qs sols objs,
  nb_init bav bP bI bN None [] = Ok s0 /\ nb_reach bav bP bI bN s0 s qs /\ bs_phase s = PArchive /\ In (QSave sols objs) qs /\
  nb_validate bP bI bN (QSave sols objs) (dsave [0; 2]%Z) = Ok tt /\ length sols = 4 /\ length (others sols [0; 2]%Z) = 2.
Proof.
  destruct (b_reach 1) as (s0 & I0 & R1 & Q1); [lia|].
  exists s0, (b_state 1), (b_reqs 1), (match b_req 1 with QSave a _ => a | _ => [] end), (match b_req 1 with QSave _ b => b | _ => [] end).
  split; [exact I0|]. split; [exact R1|]. split; [vm_compute; reflexivity|].
  split; [left; vm_cast_no_check (eq_refl (b_req 1))|]. repeat split; vm_compute; reflexivity.
Qed.

(** ** C32: the requested number of solutions *)
Theorem C32_new_solutions :
  forall (N : NumOps) (L : OrdLaws N) (fin : N -> Prop), sign_exact fin ->
  forall (av : @asf_val N) p ideal nadir start x0 s0 s qs f d cl lv m s' out,
  nan_on_nan_rows av -> nb_wf fin p ideal nadir ->
  nb_init av p ideal nadir start x0 = Ok s0 -> nb_reach av p ideal nadir s0 s qs ->
  bs_phase s = PClassify -> In (QClass f) qs -> nb_validate p ideal nadir (QClass f) d = Ok tt ->
  bd_cls d = Some cl -> length cl = p_nobj p -> bd_levels d = Some lv -> Forall fin lv -> bd_nsol d = Some (VInt m) ->
  nb_iterate av p ideal nadir (QClass f) (Some d) s = (s', Ok out) ->
  (1 <= m <= 4)%Z /\
  exists sols objs z, out = QSave sols objs /\ length sols = Z.to_nat m /\ length objs = Z.to_nat m /\
    ((1 < m)%Z -> implied_point (p_nobj p) cl ideal nadir (bs_obj s) lv z) /\
    forall j x g, nth_error sols j = Some x -> nth_error objs j = Some g ->
      produced av p ideal nadir (bs_sol s) (bs_obj s) cl lv z j x g.
Proof.
  intros N L fin [Hsub Hfin] av p ideal nadir start x0 s0 s qs f d cl lv m s' out HN HW H0 HR Hp Hin HV Hcl Hlen Hlv Flv Hns H.
  destruct (inv_reach _ _ _ _ _ _ _ _ _ H0 HR) as (HM & _ & _).
  apply (validate_cls_iff p ideal nadir d) in HV as (cl' & lv' & ns & E1 & E2 & E3 & _ & Hl & _ & _ & Hg & Hlt).
  assert (E2' : lv' = lv) by congruence. subst lv'. assert (E3' : ns = VInt m) by congruence. subst ns.
  assert (Hm : (1 <= m <= 4)%Z). { cbn in Hg, Hlt. injection Hg as Hg. injection Hlt as Hlt. apply Z.ltb_ge in Hg, Hlt. lia. }
  split; auto. apply iter_cls in H; auto. destruct H as [(e & _ & E)|(d' & q & Ed & Hh & _ & E)]; [discriminate|].
  injection Ed as <-. injection E as ->. unfold nb_handle_cls in Hh. rewrite Hcl, Hns, Hlv in Hh. cbn [key rbind py_toint py_int] in Hh.
  eapply (new_solutions_spec L fin Hsub av p ideal nadir); eauto.
Qed.
Print Assumptions C32_new_solutions.

(** ** C34: the classification is honoured (discrete problems) *)
Theorem C34_first_solution_honours :
  forall (N : NumOps) (L : OrdLaws N) (fin : N -> Prop), sign_exact fin ->
  forall (av : @asf_val N) k data decs closest ideal nadir start x0 s0 s qs f d cl lv m s' sols objs,
  nan_on_nan_rows av -> nb_wf fin (PDisc k data decs closest) ideal nadir ->
  nb_init av (PDisc k data decs closest) ideal nadir start x0 = Ok s0 ->
  nb_reach av (PDisc k data decs closest) ideal nadir s0 s qs ->
  bs_phase s = PClassify -> In (QClass f) qs -> nb_validate (PDisc k data decs closest) ideal nadir (QClass f) d = Ok tt ->
  bd_cls d = Some cl -> length cl = k -> bd_levels d = Some lv -> Forall fin lv -> bd_nsol d = Some (VInt m) ->
  nb_iterate av (PDisc k data decs closest) ideal nadir (QClass f) (Some d) s = (s', Ok (QSave sols objs)) ->
  exists i x g, nth_error sols 0 = Some x /\ nth_error objs 0 = Some g /\
    nth_error data i = Some g /\ nth_error decs i = Some x /\ honours cl (bs_obj s) lv g.
Proof.
  intros N L fin HS av k data decs closest ideal nadir start x0 s0 s qs f d cl lv m s' sols objs HN HW H0 HR Hp Hin HV Hcl Hlen Hlv Flv Hns H.
  destruct (C32_new_solutions N L fin HS av _ ideal nadir start x0 s0 s qs f d cl lv m s' _ HN HW H0 HR Hp Hin HV Hcl Hlen Hlv Flv Hns H)
    as (Hm & sols' & objs' & z & E & L1 & L2 & _ & P). injection E as <- <-.
  destruct sols as [|x sols]; [cbn in L1; lia|]. destruct objs as [|g objs]; [cbn in L2; lia|].
  destruct (P 0 x g eq_refl eq_refl) as (i & v & G1 & G2 & G3 & _). exists i, x, g. repeat (split; [solve [auto]|]). auto.
Qed.
Print Assumptions C34_first_solution_honours.

Theorem C34_feasible_if_levels_allow_current :
  forall (N : NumOps) (L : OrdLaws N) (fin : N -> Prop), sign_exact fin ->
  forall (av : @asf_val N) k data decs closest ideal nadir start x0 s0 s qs f d cl lv m,
  proper_asf fin av -> nb_wf fin (PDisc k data decs closest) ideal nadir ->
  nb_init av (PDisc k data decs closest) ideal nadir start x0 = Ok s0 ->
  nb_reach av (PDisc k data decs closest) ideal nadir s0 s qs ->
  bs_phase s = PClassify -> In (QClass f) qs -> nb_validate (PDisc k data decs closest) ideal nadir (QClass f) d = Ok tt ->
  bd_cls d = Some cl -> length cl = k -> bd_levels d = Some lv -> Forall fin lv -> bd_nsol d = Some (VInt m) ->
  (forall i y u, nth_error cl i = Some CImpairUntil -> nth_error (bs_obj s) i = Some y -> nth_error lv i = Some u -> nleb y u = true) ->
  (exists g, In g data /\ honours cl (bs_obj s) lv g) /\
  exists s' out, nb_iterate av (PDisc k data decs closest) ideal nadir (QClass f) (Some d) s = (s', Ok out).
Proof.
  intros N L fin [Hsub Hfin] av k data decs closest ideal nadir start x0 s0 s qs f d cl lv m HA HW H0 HR Hp Hin HV Hcl Hlen Hlv Flv Hns Hge.
  destruct (inv_reach _ _ _ _ _ _ _ _ _ H0 HR) as (HM & _ & _).
  apply (validate_cls_iff _ ideal nadir d) in HV as (cl' & lv' & ns & E1 & E2 & E3 & _ & Hl & _).
  assert (E2' : lv' = lv) by congruence. subst lv'. cbn [p_nobj] in Hl.
  destruct (obj_wf fin _ _ _ HW _ _ HM) as [O1 O2]. cbn [p_nobj] in O1.
  split.
  - exists (bs_obj s). split; [destruct HM as (i & _ & Hi); eapply nth_error_In; eauto|].
    eapply (current_honours L fin); eauto. congruence.
  - assert (AT : forall a row ref, exists v, av a row ref = Ok v) by (intros a row ref; destruct (HA a row ref) as (v & Hv & _); eauto).
    assert (AF : forall a row ref v, Forall fin row -> av a row ref = Ok v -> nisnan v = false).
    { intros a row ref v F Hv. destruct (HA a row ref) as (v' & Hv' & G). assert (v' = v) by congruence. subst. auto. }
    destruct (new_solutions_total L fin Hsub Hfin av k data decs closest ideal nadir HW AT AF s cl lv m HM Hlen Hl Flv Hge) as (q & Hq).
    exists (w_phase PArchive s), q. unfold nb_iterate, sbind, sget. rewrite Hp. unfold lift, resp_, smod, sret.
    assert (Hh : nb_handle_cls av (PDisc k data decs closest) ideal nadir s d = Ok q).
    { unfold nb_handle_cls. rewrite Hcl, Hns, Hlv. cbn [key rbind py_toint py_int]. exact Hq. }
    rewrite Hh. reflexivity.
Qed.
Print Assumptions C34_feasible_if_levels_allow_current.
(** The hypotheses of C32 and C34 hold for both number systems and for the demonstration problem;
    the current solution is (4,0), the first solution found for '<', '>=' 2 is (1,2). *)
Example C32_C34_hypotheses_met :
  sign_exact (N:=XR) xfin /\ sign_exact (N:=F64) ffin /\
  nan_on_nan_rows bav /\ proper_asf ffin bav /\ nb_wf ffin bP bI bN /\
  exists s0 s qs f s' sols objs,
    nb_init bav bP bI bN None [] = Ok s0 /\ nb_reach bav bP bI bN s0 s qs /\ bs_phase s = PClassify /\ In (QClass f) qs /\
    nb_validate bP bI bN (QClass f) b_classify = Ok tt /\ Forall ffin [0; 2]%float /\
    nb_iterate bav bP bI bN (QClass f) (Some b_classify) s = (s', Ok (QSave sols objs)) /\
    bs_obj s = [4; 0]%float /\ nth_error objs 0 = Some [1; 2]%float /\ length objs = 4.
Proof.
  split; [exact XR_sign_exact|]. split; [exact F64_sign_exact|]. split; [exact bav_nan|]. split; [exact bav_proper|]. split; [exact bP_wf|].
  destruct (b_reach 0) as (s0 & I0 & R0 & Q0); [lia|].
  exists s0, (b_state 0), (b_reqs 0), (match b_req 0 with QClass f => f | _ => [] end), (b_state 1),
    (match b_req 1 with QSave a _ => a | _ => [] end), (match b_req 1 with QSave _ b => b | _ => [] end).
  split; [exact I0|]. split; [exact R0|]. split; [vm_compute; reflexivity|]. split; [left; vm_cast_no_check (eq_refl (b_req 0))|].
  split; [vm_compute; reflexivity|]. split; [repeat constructor|].
  split; [vm_cast_no_check (@eq_refl (nb_state F64 * res (nb_request F64)) (b_state 1, Ok (b_req 1)))|].
  split; [vm_cast_no_check (@eq_refl (list F64) [4; 0]%float)|]. split; [vm_cast_no_check (@eq_refl (option (list F64)) (Some [1; 2]%float))|].
  vm_compute; reflexivity.
Qed.

(** A '>=' level below the current value is accepted, and no solution is found: ValueError (np.nanargmin). *)
Theorem C34_low_level_finds_nothing :
  exists s0 s qs f d s',
    nb_init bav bP bI bN (Some [1; 1]%float) [] = Ok s0 /\ nb_reach bav bP bI bN s0 s qs /\ bs_phase s = PClassify /\ In (QClass f) qs /\
    nb_validate bP bI bN (QClass f) d = Ok tt /\ bd_cls d = Some [CImpairUntil; CAccept] /\
    nb_iterate bav bP bI bN (QClass f) (Some d) s = (s', Raise ValueErr).
Proof.
  pose (s0 := match nb_init bav bP bI bN (Some [1; 1]%float) [] with Ok s => s | Raise _ => MkBS [] [] [] [] PEnd end).
  pose (d := dcls [CImpairUntil; CAccept] [2; 0]%float 1).
  exists s0, s0, [nb_start s0], (match nb_start s0 with QClass f => f | _ => [] end), d, s0.
  split; [vm_cast_no_check (@eq_refl (res (nb_state F64)) (Ok s0))|]. split; [apply nb_reach_init|]. split; [vm_compute; reflexivity|].
  split; [left; reflexivity|]. split; [vm_compute; reflexivity|]. split; [reflexivity|].
  vm_cast_no_check (@eq_refl (nb_state F64 * res (nb_request F64)) (s0, Raise ValueErr)).
Qed.
Print Assumptions C34_low_level_finds_nothing.

(** ** C33: intermediate solutions *)
Theorem C33_points_partial :
  forall (av : @asf_val XR) p ideal nadir start x0 s0 s qs sols objs d z1 z2 ix n (a b : list R) s' out,
  nb_init av p ideal nadir start x0 = Ok s0 -> nb_reach av p ideal nadir s0 s qs ->
  bs_phase s = PIntermediate -> In (QInter sols objs) qs -> nb_validate p ideal nadir (QInter sols objs) d = Ok tt ->
  bd_indices d = Some (z1 :: z2 :: ix) -> bd_ndes d = Some (VInt n) ->
  nth_error sols (Z.to_nat z1) = Some (xv a) -> nth_error sols (Z.to_nat z2) = Some (xv b) -> length a = length b -> a <> b ->
  nb_iterate av p ideal nadir (QInter sols objs) (Some d) s = (s', Ok out) ->
  exists sols' objs' (pts : list (list R)),
    out = QSave sols' objs' /\ (1 <= n)%Z /\ length pts = Z.to_nat n /\ length sols' = Z.to_nat n /\ length objs' = Z.to_nat n /\
    (** the points are strictly between [a] and [b], distinct, and equally far apart *)
    (forall t pt, nth_error pts t = Some pt -> exists c, (0 < c < 1)%R /\ pt = rcomb c a (1 - c) b) /\
    (forall t u pt pu, nth_error pts t = Some pt -> nth_error pts u = Some pu ->
       rdist pt pu = (Rabs (INR t - INR u) / INR (Z.to_nat n + 2) * rdist a b)%R) /\
    NoDup pts /\
    (** and each is projected to the front to give the solution that is shown *)
    (forall t pt x g, nth_error pts t = Some pt -> nth_error sols' t = Some x -> nth_error objs' t = Some g ->
       projected av p ideal nadir (bs_sol s) (xv pt) x g).
Proof.
  intros av p ideal nadir start x0 s0 s qs sols objs d z1 z2 ix n a b s' out H0 HR Hp Hin HV Hix Hnd Ha Hb Hl Hne H.
  pose proof (C30_shown_aligned _ _ _ _ _ _ _ _ _ _ _ H0 HR Hin) as HF. cbn in HF.
  apply (validate_inter_ok objs d _ _ Hix Hnd) in HV. destruct HV as [[E _]|(_ & Hn & Hr)]; [discriminate|].
  inversion Hr as [|? ? Hz1 Hr']; subst. inversion Hr' as [|? ? Hz2 _]; subst.
  apply iter_inter in H; auto. destruct H as [(e & _ & E & _)|(d' & q & Ed & Hh & E & _)]; [discriminate|]. injection Ed as <-. injection E as ->.
  pose proof (nb_between_xr a b (Z.to_nat n) Hl Hne) as HB.
  destruct (handle_inter_spec XR_ord av p ideal nadir s sols objs d q z1 z2 ix n _ _ _ Hix Hnd (proj1 Hz1) (proj1 Hz2) Ha Hb HB Hh) as (sols' & objs' & -> & L1 & L2 & HP).
  rewrite map_length, seq_length in L1, L2.
  set (k := Z.to_nat n) in *. exists sols', objs', (map (mid k a b) (seq 1 k)). rewrite map_length, seq_length.
  assert (HD : (0 < rdist a b)%R). { destruct (Rle_lt_or_eq_dec 0 (rdist a b) (rdist_nonneg a b)) as [G|G]; auto. exfalso. apply Hne. apply rdist_0; auto. }
  assert (Hk : (0 < INR (k + 2))%R) by (apply lt_0_INR; lia).
  assert (NT : forall t pt, nth_error (map (mid k a b) (seq 1 k)) t = Some pt -> t < k /\ pt = mid k a b (S t)).
  { intros t pt E. assert (Lt : t < k). { assert (G : t < length (map (mid k a b) (seq 1 k))) by (apply nth_error_Some; congruence). rewrite map_length, seq_length in G. auto. }
    split; auto. rewrite nth_error_map, (nth_error_nth' _ 0) in E by (rewrite seq_length; auto). rewrite seq_nth in E by auto. cbn in E. congruence. }
  assert (DD : forall t u pt pu, nth_error (map (mid k a b) (seq 1 k)) t = Some pt -> nth_error (map (mid k a b) (seq 1 k)) u = Some pu ->
       rdist pt pu = (Rabs (INR t - INR u) / INR (k + 2) * rdist a b)%R).
  { intros t u pt pu E1 E2. apply NT in E1 as (_ & ->). apply NT in E2 as (_ & ->). rewrite mid_dist by auto. rewrite !S_INR.
    replace (INR t + 1 - (INR u + 1))%R with (INR t - INR u)%R by ring. reflexivity. }
  split; [reflexivity|]. split; [exact Hn|]. split; [reflexivity|]. split; [exact L1|]. split; [exact L2|]. split; [|split; [exact DD|split]].
  - intros t pt E. apply NT in E as (Lt & ->). exists (INR (S t) / INR (k + 2))%R. split; [|reflexivity]. split.
    + apply Rdiv_lt_0_compat; auto. apply lt_0_INR. lia.
    + apply (Rmult_lt_reg_r (INR (k + 2))); auto. unfold Rdiv. rewrite Rmult_assoc, Rinv_l by lra. rewrite Rmult_1_l, Rmult_1_r. apply lt_INR. lia.
  - apply (proj2 (NoDup_nth_error _)). intros t u Lt E. rewrite map_length, seq_length in Lt.
    destruct (nth_error (map (mid k a b) (seq 1 k)) t) as [pt|] eqn:E1; [|apply nth_error_None in E1; rewrite map_length, seq_length in E1; lia].
    pose proof (DD t u pt pt E1 (eq_sym E)) as G. assert (G0 : rdist pt pt = 0%R) by (apply rdist_0; auto).
    rewrite G0 in G. symmetry in G. apply Rmult_integral in G as [G|G]; [|lra]. unfold Rdiv in G. apply Rmult_integral in G as [G|G].
    + assert (INR t = INR u) by (destruct (Req_dec (INR t - INR u) 0) as [Z|Z]; [lra|]; apply Rabs_no_R0 in Z; contradiction). apply INR_eq. auto.
    + exfalso. apply Rinv_neq_0_compat in G; auto; lra.
  - intros t pt x g Ht Hx Hg. apply (HP t (xv pt) x g); auto.
    rewrite nth_error_map in Ht. rewrite nth_error_map. destruct (nth_error (seq 1 k) t); [|discriminate]. cbn in *. congruence.
Qed.
Print Assumptions C33_points_partial.

(** The hypotheses of C33 are met: the second and the first solution of a two-solution
    classification, (1,0) and (0,1), and one point between them. *)
Definition cP : nb_problem XR := PMO 2 (fun x => x) None
  (fun a _ _ _ => Ok (match a with AMaxOfTwo _ _ _ _ => xv [0; 1]%R | _ => xv [1; 0]%R end, true)).
Example C33_hypotheses_met : exists (av : @asf_val XR) s0 s qs sols objs d s' out,
  nb_init av cP (xv [0; 0]%R) (xv [1; 1]%R) None [] = Ok s0 /\ nb_reach av cP (xv [0; 0]%R) (xv [1; 1]%R) s0 s qs /\
  bs_phase s = PIntermediate /\ In (QInter sols objs) qs /\
  nb_validate cP (xv [0; 0]%R) (xv [1; 1]%R) (QInter sols objs) d = Ok tt /\
  bd_indices d = Some [1; 0]%Z /\ bd_ndes d = Some (VInt 1) /\
  nth_error sols 1 = Some (xv [1; 0]%R) /\ nth_error sols 0 = Some (xv [0; 1]%R) /\ [1; 0]%R <> [0; 1]%R /\
  nb_iterate av cP (xv [0; 0]%R) (xv [1; 1]%R) (QInter sols objs) (Some d) s = (s', Ok out).
Proof.
  pose (av := (fun _ _ _ => Ok (Fin 0)) : @asf_val XR).
  pose (s0 := MkBS (N:=XR) (xv [1; 0]%R) (xv [1; 0]%R) [] [] PClassify).
  pose (d1 := MkBD (N:=XR) (Some [CFree; CFree]) (Some (xv [0; 0]%R)) (Some (VInt 2)) None None None None).
  pose (d2 := MkBD (N:=XR) None None None (Some []) None None None).
  pose (sols := [xv [0; 1]; xv [1; 0]]%R : list (list XR)).
  exists av, s0, (MkBS (xv [1; 0]%R) (xv [1; 0]%R) [] [] PIntermediate), [QInter sols sols; QSave sols sols; nb_start s0], sols, sols,
    (MkBD (N:=XR) None None None (Some [1; 0]%Z) (Some (VInt 1)) None None).
  eexists _, _. split; [reflexivity|]. split.
  { apply (nb_reach_step av cP (xv [0; 0]%R) (xv [1; 1]%R) s0 (w_phase PArchive s0) [QSave sols sols; nb_start s0] (QSave sols sols) (Some d2) _ (Ok (QInter sols sols)));
      [|left; reflexivity|intros d E; injection E as <-; reflexivity|reflexivity].
    apply (nb_reach_step av cP (xv [0; 0]%R) (xv [1; 1]%R) s0 s0 [nb_start s0] (nb_start s0) (Some d1) _ (Ok (QSave sols sols)));
      [apply nb_reach_init|left; reflexivity|intros d E; injection E as <-; reflexivity|reflexivity]. }
  split; [reflexivity|]. split; [left; reflexivity|]. repeat (split; [reflexivity|]). split; [|reflexivity].
  intros E. injection E. lra.
Qed.

(** What is missing of C33.  The points do not divide the segment evenly: the gap to the first chosen
    solution is twice the gap to the second. *)
Theorem C33_uneven_ends_refuted : forall (a b : list R) (n : nat) first final pts,
  length a = length b -> a <> b -> nb_between (N:=XR) (xv a) (xv b) (S n) = Ok pts ->
  nth_error pts 0 = Some (xv first) -> nth_error pts n = Some (xv final) ->
  rdist a final = (2 * rdist first b)%R /\ (0 < rdist first b)%R.
Proof.
  intros a b n first final pts Hl Hne H Hf Hla. rewrite nb_between_xr in H by auto.
  assert (E : pts = map (fun i => xv (mid (S n) a b i)) (seq 1 (S n))) by congruence. subst pts. clear H.
  rewrite nth_error_map, (nth_error_nth' _ 0) in Hf by (rewrite seq_length; lia).
  rewrite nth_error_map, (nth_error_nth' _ 0) in Hla by (rewrite seq_length; lia).
  rewrite seq_nth in Hf, Hla by lia. cbn [option_map plus] in Hf, Hla.
  apply (f_equal (fun o => match o with Some v => v | None => [] end)) in Hf, Hla. cbn match in Hf, Hla. apply xv_inj in Hf, Hla. subst.
  assert (HD : (0 < rdist a b)%R). { destruct (Rle_lt_or_eq_dec 0 (rdist a b) (rdist_nonneg a b)) as [G|G]; auto. exfalso. apply Hne. apply rdist_0; auto. }
  assert (Hk : (0 < INR (S n + 2))%R) by (apply lt_0_INR; lia).
  assert (E1 : rdist (mid (S n) a b 1) b = (1 / INR (S n + 2) * rdist a b)%R).
  { rewrite <- (mid_0 (S n) a b Hl) at 2. rewrite mid_dist by auto. cbn [INR]. rewrite Rabs_right by lra. f_equal. f_equal. lra. }
  assert (E2 : rdist a (mid (S n) a b (S n)) = (2 / INR (S n + 2) * rdist a b)%R).
  { rewrite <- (mid_end (S n) a b Hl) at 1. rewrite mid_dist by auto. rewrite plus_INR. replace (INR (S n) + INR 2 - INR (S n))%R with (INR 2) by ring.
    rewrite Rabs_right by (cbn; lra). reflexivity. }
  rewrite E1. split; [|apply Rmult_lt_0_compat; auto; apply Rdiv_lt_0_compat; lra].
  transitivity (2 / INR (S n + 2) * rdist a b)%R; [exact E2|field; lra].
Qed.
Print Assumptions C33_uneven_ends_refuted.

(** And the solutions shown are the projections, which may coincide: here two equal ones. *)
Theorem C33_shown_not_distinct_refuted : exists s0 s qs x f,
  nb_init bav bP bI bN None [] = Ok s0 /\ nb_reach bav bP bI bN s0 s qs /\ In (QSave [x; x] [f; f]) qs.
Proof.
  destruct (b_reach 3) as (s0 & I0 & R & Q); [lia|]. exists s0, (b_state 3), (b_reqs 3), [3; 0]%float, [4; 0]%float.
  split; [exact I0|]. split; [exact R|]. left. vm_cast_no_check (eq_refl (b_req 3)).
Qed.
Print Assumptions C33_shown_not_distinct_refuted.

(** ** C35: validation of a classification *)
(** For responses with one classification per objective and an integer number of solutions
    (the validator checks neither). *)
Theorem C35_exact_partial :
  forall (N : NumOps) (p : nb_problem N) ideal nadir f d cl lv m,
  2 <= p_nobj p -> bd_cls d = Some cl -> length cl = p_nobj p -> bd_levels d = Some lv -> bd_nsol d = Some (VInt m) ->
  (nb_validate p ideal nadir (QClass f) d = Ok tt <->
   ~ In CBad cl /\ length lv = p_nobj p /\
   (forall i, nth_error cl i = Some CImproveUntil \/ nth_error cl i = Some CImpairUntil ->
      exists lo u hi, nth_error ideal i = Some lo /\ nth_error lv i = Some u /\ nth_error nadir i = Some hi /\ nleb lo u = true /\ nleb u hi = true) /\
   (1 <= m <= 4)%Z).
Proof.
  intros N p ideal nadir f d cl lv m K Hcl Hlen Hlv Hns. cbn [nb_validate]. rewrite (validate_cls_iff p ideal nadir d). split.
  - intros (cl' & lv' & ns & E1 & E2 & E3 & G1 & G2 & _ & G3 & G4 & G5).
    assert (cl' = cl) by congruence. assert (lv' = lv) by congruence. assert (ns = VInt m) by congruence. subst.
    repeat split; auto; cbn in G4, G5; injection G4 as G4; injection G5 as G5; apply Z.ltb_ge in G4, G5; lia.
  - intros (G1 & G2 & G3 & G4). exists cl, lv, (VInt m). repeat (split; [solve [auto]|]).
    split; [lia|]. split; [exact G3|]. cbn. split; f_equal; apply Z.ltb_ge; lia.
Qed.
Print Assumptions C35_exact_partial.
(** A missing entry is always refused. *)
Theorem C35_missing_entry : forall (N : NumOps) (p : nb_problem N) ideal nadir f d,
  bd_cls d = None \/ bd_levels d = None \/ bd_nsol d = None -> nb_validate p ideal nadir (QClass f) d = Raise MethodExn.
Proof.
  intros N p ideal nadir f d H. cbn. unfold nb_validate_cls. destruct (bd_cls d); auto. destruct (bd_levels d); auto. destruct (bd_nsol d); auto.
  destruct H as [H|[H|H]]; discriminate.
Qed.
Print Assumptions C35_missing_entry.
Example C35_hypotheses_met : nb_validate bP bI bN (QClass []) b_classify = Ok tt /\ 2 <= p_nobj bP.
Proof. split; [vm_compute; reflexivity|cbn; lia]. Qed.

(** The number of classifications is not checked: an empty list is accepted for every problem. *)
Theorem C35_length_refuted : forall (N : NumOps) (p : nb_problem N) ideal nadir f lv m,
  2 <= p_nobj p -> length lv = p_nobj p -> (1 <= m <= 4)%Z ->
  nb_validate p ideal nadir (QClass f) (MkBD (Some []) (Some lv) (Some (VInt m)) None None None None) = Ok tt.
Proof.
  intros N p ideal nadir f lv m K Hl Hm. cbn [nb_validate]. apply (validate_cls_iff p ideal nadir).
  exists [], lv, (VInt m). cbn [bd_cls bd_levels bd_nsol]. repeat (split; [solve [auto; lia]|]).
  split; [intros i [E|E]; destruct i; discriminate|]. cbn. split; f_equal; apply Z.ltb_ge; lia.
Qed.
Print Assumptions C35_length_refuted.
(** Neither is it checked that the number of solutions is an integer: 2.5 and NaN are accepted. *)
Theorem C35_number_refuted :
  nb_validate bP bI bN (QClass []) (MkBD (N:=F64) (Some [CAccept; CFree]) (Some [0; 0]%float) (Some (VFloat (2.5%float : F64) (Some 2%Z))) None None None None) = Ok tt /\
  nb_validate bP bI bN (QClass []) (MkBD (N:=F64) (Some [CAccept; CFree]) (Some [0; 0]%float) (Some (VFloat (nnan : F64) None)) None None None None) = Ok tt.
Proof. split; vm_compute; reflexivity. Qed.
Print Assumptions C35_number_refuted.

(** ** C36: indices *)
Theorem C36_save : forall (N : NumOps) (av : @asf_val N) p ideal nadir start x0 s0 s qs sols objs d,
  nb_init av p ideal nadir start x0 = Ok s0 -> nb_reach av p ideal nadir s0 s qs ->
  bs_phase s = PArchive -> In (QSave sols objs) qs -> nb_validate p ideal nadir (QSave sols objs) d = Ok tt ->
  (exists ix, bd_indices d = Some ix /\ Forall (fun z => (0 <= z < Z.of_nat (length objs))%Z) ix) /\
  exists s' q', nb_iterate av p ideal nadir (QSave sols objs) (Some d) s = (s', Ok q').
Proof.
  intros N av p ideal nadir start x0 s0 s qs sols objs d H0 HR Hp Hin HV. split.
  - cbn in HV. apply validate_save_ok in HV as (ix & E & _ & G). eauto.
  - destruct (C31_nothing_lost _ _ _ _ _ _ _ _ _ _ _ _ _ H0 HR Hp Hin HV) as (ix & ss & oo & s' & _ & _ & _ & E & _). eauto.
Qed.
Print Assumptions C36_save.

Theorem C36_most_preferred : forall (N : NumOps) (av : @asf_val N) p ideal nadir start x0 s0 s qs sols objs d,
  nb_init av p ideal nadir start x0 = Ok s0 -> nb_reach av p ideal nadir s0 s qs ->
  bs_phase s = PPreferred -> In (QPref sols objs) qs -> nb_validate p ideal nadir (QPref sols objs) d = Ok tt ->
  (exists z, bd_index d = Some (VInt z) /\ (0 <= z < Z.of_nat (length objs))%Z) /\
  exists s' q', nb_iterate av p ideal nadir (QPref sols objs) (Some d) s = (s', Ok q').
Proof.
  intros N av p ideal nadir start x0 s0 s qs sols objs d H0 HR Hp Hin HV.
  pose proof (C30_shown_aligned _ _ _ _ _ _ _ _ _ _ _ H0 HR Hin) as HF. cbn in HF. split.
  - cbn in HV. apply validate_pref_ok in HV as (z & b & E & _ & G). eauto.
  - destruct (nb_iterate av p ideal nadir (QPref sols objs) (Some d) s) as [s' out] eqn:E. apply iter_pref in E; auto.
    + destruct E as [(E & _)|(d' & z & b & x & f & _ & _ & _ & _ & _ & _ & _ & ->)]; [discriminate|]. eauto.
    + intros d' E'. injection E' as <-. exact HV.
Qed.
Print Assumptions C36_most_preferred.

(** Intermediate requests: with none or with at least two indices. *)
Theorem C36_intermediate_partial : forall (N : NumOps) (L : OrdLaws N) (av : @asf_val N) p ideal nadir start x0 s0 s qs sols objs d n s' out,
  no_index_errors av p ->
  nb_init av p ideal nadir start x0 = Ok s0 -> nb_reach av p ideal nadir s0 s qs ->
  bs_phase s = PIntermediate -> In (QInter sols objs) qs -> nb_validate p ideal nadir (QInter sols objs) d = Ok tt ->
  bd_ndes d = Some (VInt n) -> nb_iterate av p ideal nadir (QInter sols objs) (Some d) s = (s', out) ->
  exists ix, bd_indices d = Some ix /\ Forall (fun z => (0 <= z < Z.of_nat (length objs))%Z) ix /\
    (ix = [] <-> n = 0%Z) /\ (length ix <> 1 -> out <> Raise IndexErr).
Proof.
  intros N L av p ideal nadir start x0 s0 s qs sols objs d n s' out HI H0 HR Hp Hin HV Hnd H.
  pose proof (C30_shown_aligned _ _ _ _ _ _ _ _ _ _ _ H0 HR Hin) as HF. cbn in HF.
  cbn [nb_validate] in HV. pose proof HV as HV'. unfold nb_validate_inter in HV'. destruct (bd_indices d) as [ix|] eqn:Hix; [|discriminate]. clear HV'.
  apply (validate_inter_ok objs d _ _ Hix Hnd) in HV. exists ix. split; auto.
  assert (Hr : Forall (fun z => (0 <= z < Z.of_nat (length objs))%Z) ix) by (destruct HV as [[-> _]|(_ & _ & G)]; auto).
  split; auto. split; [destruct HV as [[-> ->]|(G1 & G2 & _)]; [tauto|split; [congruence|lia]]|].
  intros H1 ->. apply iter_inter in H; auto. destruct H as [(e & _ & E & G)|(d' & q & _ & _ & E & _)]; [|discriminate].
  injection E as <-. specialize (G _ eq_refl). revert G. eapply (handle_inter_idx L); eauto; [|congruence].
  rewrite (F2len _ _ _ HF). exact Hr.
Qed.
Print Assumptions C36_intermediate_partial.

(** What is missing: "exactly two indices" is not checked.  One index is always accepted and always
    fails with an IndexError. *)
Theorem C36_one_index_refuted : forall (N : NumOps) (av : @asf_val N) p ideal nadir start x0 s0 s qs sols objs z n,
  nb_init av p ideal nadir start x0 = Ok s0 -> nb_reach av p ideal nadir s0 s qs ->
  bs_phase s = PIntermediate -> In (QInter sols objs) qs -> (0 <= z < Z.of_nat (length objs))%Z -> (1 <= n)%Z ->
  nb_validate p ideal nadir (QInter sols objs) (MkBD None None None (Some [z]) (Some (VInt n)) None None) = Ok tt /\
  nb_iterate av p ideal nadir (QInter sols objs) (Some (MkBD None None None (Some [z]) (Some (VInt n)) None None)) s = (s, Raise IndexErr).
Proof.
  intros N av p ideal nadir start x0 s0 s qs sols objs z n H0 HR Hp Hin Hz Hn.
  pose proof (C30_shown_aligned _ _ _ _ _ _ _ _ _ _ _ H0 HR Hin) as HF. cbn in HF.
  set (d := MkBD None None None (Some [z]) (Some (VInt n)) None None). split.
  - cbn [nb_validate]. apply (validate_inter_ok objs d [z] n eq_refl eq_refl). right. split; [discriminate|]. split; auto.
  - pose proof (F2len _ _ _ HF) as Hl. destruct (nth_error sols (Z.to_nat z)) as [x|] eqn:Ex; [|apply nth_error_None in Ex; lia].
    assert (E : nb_handle_inter av p ideal nadir s sols objs d = Raise IndexErr) by (apply (handle_inter_one av p ideal nadir s sols objs d z (VInt n) n x eq_refl (proj1 Hz) Ex eq_refl eq_refl)).
    unfold nb_iterate, sbind, sget, lift, resp_. rewrite Hp, E. reflexivity.
Qed.
Print Assumptions C36_one_index_refuted.

(** The hypotheses of C33 and C36 are met. *)
Example C36_hypotheses_met : exists s0 s2 q2 sols objs s5 q5 sols5 objs5,
  no_index_errors bav bP /\ nb_init bav bP bI bN None [] = Ok s0 /\
  nb_reach bav bP bI bN s0 s2 q2 /\ bs_phase s2 = PIntermediate /\ In (QInter sols objs) q2 /\
  nb_validate bP bI bN (QInter sols objs) (dinter [0; 3]%Z 2) = Ok tt /\
  nb_reach bav bP bI bN s0 s5 q5 /\ bs_phase s5 = PPreferred /\ In (QPref sols5 objs5) q5 /\
  nb_validate bP bI bN (QPref sols5 objs5) (dpref 1 true) = Ok tt.
Proof.
  destruct (b_reach 2) as (s0 & I0 & R2 & Q2); [lia|]. destruct (b_reach 5) as (t & I5 & R5 & Q5); [lia|].
  assert (t = s0) by congruence. subst t.
  exists s0, (b_state 2), (b_reqs 2), (match b_req 2 with QInter a _ => a | _ => [] end), (match b_req 2 with QInter _ b => b | _ => [] end),
    (b_state 5), (b_reqs 5), (match b_req 5 with QPref a _ => a | _ => [] end), (match b_req 5 with QPref _ b => b | _ => [] end).
  split; [repeat split; try discriminate; intros; cbn; lia|]. split; [exact I0|]. split; [exact R2|]. split; [vm_compute; reflexivity|]. split; [left; vm_cast_no_check (eq_refl (b_req 2))|].
  split; [vm_compute; reflexivity|]. split; [exact R5|]. split; [vm_compute; reflexivity|]. split; [left; vm_cast_no_check (eq_refl (b_req 5))|]. vm_compute; reflexivity.
Qed.

(** ** C37: the chosen solution *)
Theorem C37_chosen_solution : forall (N : NumOps) (av : @asf_val N) p ideal nadir start x0 s0 s qs sols objs d i b,
  nb_init av p ideal nadir start x0 = Ok s0 -> nb_reach av p ideal nadir s0 s qs ->
  bs_phase s = PPreferred -> In (QPref sols objs) qs -> nb_validate p ideal nadir (QPref sols objs) d = Ok tt ->
  bd_index d = Some (VInt i) -> bd_continue d = Some (VBool b) ->
  exists x f s', nth_error sols (Z.to_nat i) = Some x /\ nth_error objs (Z.to_nat i) = Some f /\ (0 <= i)%Z /\
    nb_iterate av p ideal nadir (QPref sols objs) (Some d) s = (s', Ok (if b then QClass f else QStop x f)) /\
    bs_sol s' = x /\ bs_obj s' = f /\ bs_phase s' = (if b then PClassify else PEnd).
Proof.
  intros N av p ideal nadir start x0 s0 s qs sols objs d i b H0 HR Hp Hin HV Hi Hb.
  pose proof (C30_shown_aligned _ _ _ _ _ _ _ _ _ _ _ H0 HR Hin) as HF. cbn in HF.
  destruct (nb_iterate av p ideal nadir (QPref sols objs) (Some d) s) as [s' out] eqn:E. apply iter_pref in E; auto.
  - destruct E as [(E & _)|(d' & z & b' & x & f & Ed & Ez & Eb & Hz & Ex & Ef & -> & ->)]; [discriminate|]. injection Ed as <-.
    assert (z = i) by congruence. assert (b' = b) by congruence. subst.
    exists x, f, (MkBS x f (bs_asols s) (bs_aobjs s) (if b then PClassify else PEnd)). repeat (split; [solve [auto]|]). auto.
  - intros d' E'. injection E' as <-. exact HV.
Qed.
Print Assumptions C37_chosen_solution.

(** ** C65: construction *)
(** The session starts at the projection of the starting point, or of the middle
    of the ideal-nadir box, with an empty archive, and shows it. *)
Theorem C65_construction : forall (N : NumOps) (L : OrdLaws N) (av : @asf_val N) p ideal nadir start x0 s0,
  nb_init av p ideal nadir start x0 = Ok s0 ->
  let ref := match start with Some v => v | None => zipw (fun a b => ndiv (nadd a b) (nofZ 2)) ideal nadir end in
  nb_start s0 = QClass (bs_obj s0) /\ bs_asols s0 = [] /\ bs_aobjs s0 = [] /\
  match p with
  | PMO _ evaluate constr minimize =>
      minimize (APoint nadir ideal) ref (option_map (fun c => fun x => Ok (c x)) constr) x0 = Ok (bs_sol s0, true) /\
      bs_obj s0 = evaluate (bs_sol s0)
  | PDisc _ objs decs _ =>
      exists i v, nth_error decs i = Some (bs_sol s0) /\ nth_error objs i = Some (bs_obj s0) /\
        av (APoint nadir ideal) (bs_obj s0) ref = Ok v /\ nisnan v = false /\
        forall g w, In g objs -> av (APoint nadir ideal) g ref = Ok w -> nisnan w = false -> nleb v w = true
  end.
Proof.
  intros N L av p ideal nadir start x0 s0 H. cbv zeta. unfold nb_init, vadd in H. rewrite map_zipw in H. destruct (nb_start_ok start ideal); [|discriminate]. cbn [negb] in H.
  destruct p as [n ev co mi|n objs decs fc].
  - apply rbind_ok in H as ([x b] & Hm & H). cbn [fst snd] in H. destruct b; [|discriminate]. cbn [negb] in H. injection H as <-. cbn. auto.
  - apply rbind_ok in H as (i & Hi & H). apply rbind_ok in H as (x & Hx & H). apply rbind_ok in H as (f & Hf & H). injection H as <-.
    apply at_ok in Hx, Hf. apply (disc_free L) in Hi as (f' & v & Hf' & Hv & Hn & Hm). assert (f' = f) by congruence. subst f'.
    cbn [bs_sol bs_obj bs_asols bs_aobjs nb_start nb_request_cls]. split; [reflexivity|]. split; [reflexivity|]. split; [reflexivity|].
    exists i, v. split; [exact Hx|]. split; [exact Hf|]. split; [exact Hv|]. split; [exact Hn|]. intros g w Hg. destruct (In_nth_error _ _ Hg) as (j & Hj). eauto.
Qed.
Print Assumptions C65_construction.

(** NimbusException: a starting point with neither one entry nor one entry per
    objective, and an initial optimisation that does not succeed. *)
Theorem C65_reported : forall (N : NumOps) (av : @asf_val N) p ideal nadir start x0,
  (forall v, start = Some v -> length v <> 1 -> length v <> length ideal -> nb_init av p ideal nadir start x0 = Raise MethodExn) /\
  (forall n ev co mi x, p = PMO n ev co mi -> (forall a r c y, mi a r c y = Ok (x, false)) -> nb_init av p ideal nadir start x0 = Raise MethodExn).
Proof.
  intros N av p ideal nadir start x0. split.
  - intros v -> H1 H2. unfold nb_init, nb_start_ok. destruct (Nat.eqb_spec (length v) 1); [contradiction|]. destruct (Nat.eqb_spec (length v) (length ideal)); [contradiction|]. reflexivity.
  - intros n ev co mi x -> Hm. unfold nb_init. destruct (nb_start_ok start ideal); cbn [negb]; [|reflexivity]. rewrite Hm. reflexivity.
Qed.
Print Assumptions C65_reported.

(** Refuted: a starting point with one entry is accepted for two objectives. *)
Definition b_init (v : list F64) : nb_state F64 :=
  match nb_init bav bP bI bN (Some v) [] with Ok s => s | Raise _ => MkBS [] [] [] [] PClassify end.
Definition b_one : list F64 := [1%float].
Definition b_two : list F64 := [1; 1]%float.
Definition b_row : list F64 := [4; 0]%float.
Theorem C65_one_entry_refuted : nb_init bav bP bI bN (Some b_one) [] = Ok (b_init b_one) /\ length b_one = 1 /\ length bI = 2.
Proof. split; [vm_cast_no_check (eq_refl (@Ok (nb_state F64) (b_init b_one)))|]. split; reflexivity. Qed.
Print Assumptions C65_one_entry_refuted.
Example C65_hypotheses_met : nb_init bav bP bI bN (Some b_two) [] = Ok (b_init b_two) /\ bs_obj (b_init b_two) = b_row.
Proof. split; [vm_cast_no_check (eq_refl (@Ok (nb_state F64) (b_init b_two)))|]. vm_cast_no_check (eq_refl b_row). Qed.
