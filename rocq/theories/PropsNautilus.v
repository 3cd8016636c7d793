(** * Properties of NAUTILUS (C43-C47, C67-C71).
    [nt_reach p v eps ideal nadir ok s qs]: after some history the method object is
    in state [s] and has issued the requests [qs]; any issued request may be
    iterated at any time, unanswered or with any response its setter accepts, as
    far as [ok] allows; failing calls are part of the history.
    [nt_path], [nt_trail], [nt_run]: sessions, see SNautilus.v.
    The variant [NV1] is NAUTILUS, [NV2 start fuel] is NAUTILUS 2. *)
From Coq Require Import ZArith List Bool Lia Sorted Reals Lra Floats.
From Verif Require Import Num NumXR NumF64 Py Np Spec NpFacts XRFacts Hoare MAsf PAsf MNautilus SNautilus
  PNautilus PNautilus2 PNautilus3 PNautilus4 PNautilus5 PNautilus6 PNautilus8.
Import ListNotations.

(** A concrete problem for the examples: two objectives; the attainable objective
    vectors are [pts], decision vectors are the objective vectors themselves; the
    optimizers are exact. *)
Definition ev2 (x : list F64) : list F64 := match x with [a; b] => [a; b] | _ => [nofZ 0; nofZ 0] end.
Definition or_first (r : res (list F64)) (pts : list (list F64)) : res (list F64) := match r with Ok x => Ok x | Raise _ => Ok (hd [] pts) end.
Definition best (rho : F64) (pts : list (list F64)) (w n u q x0 : list F64) : res (list F64) :=
  or_first (do i <- rp_disc rho w n u pts q; at_ pts i) pts.
Definition lowest (pts : list (list F64)) (i : nat) (e x0 : list F64) : res (list F64) :=
  let ok := filter (fun f => all_le (drop_at i f) e) pts in
  or_first (do vals <- rseq (map (fun f => at_ f i) ok); do j <- npnanargmin vals; at_ ok j) pts.
Definition eP (rho : F64) (pts : list (list F64)) : nt_problem F64 := MkNP ev2 None [] (best rho pts) (lowest pts).

Definition eI : list F64 := [0; 0]%float.
Definition eN : list F64 := [1; 1]%float.
Definition eEps : F64 := 0x1.0c6f7a0b5ed8dp-20%float.   (* 1e-6 *)
Definition e6 : F64 := 0x1.0c6f7a0b5ed8dp-20%float.
Definition epts : list (list F64) := [[0.25; 0.5]; [0.5; 0.25]]%float.
Definition eA : nt_problem F64 := eP e6 epts.
Definition e_it (p : nt_problem F64) (v : nt_variant F64) q d s := nt_iterate p v eEps eI eN q (Some d) s.
(** Answers: the first one with [n] iterations; a step forward; *)
Definition a_init (n : Z) (m : Z) (i : nt_info F64) : nt_dict F64 := MkND (Some (VInt n)) None None None (Some (VInt m)) (Some i).
Definition a_keep : nt_dict F64 := MkND None (Some (VBool false)) (Some (VBool false)) (Some (VBool true)) None None.
Definition ranks12 : nt_info F64 := PArr ([1; 2]%float : list F64).
Definition run3 (p : nt_problem F64) (v : nt_variant F64) := 
  let '(s1, r1) := e_it p v NInit (a_init 3 1 ranks12) nt_init in
  match r1 with
  | Ok (Some q1) =>
      let '(s2, r2) := e_it p v q1 a_keep s1 in
      match r2 with
      | Ok (Some q2) => let '(s3, r3) := e_it p v q2 a_keep s2 in
          match r3 with Ok (Some q3) => Some (s1, q1, s2, q2, s3, q3) | _ => None end
      | _ => None
      end
  | _ => None
  end.

(** ** C43: no IndexError and consistent counters *)
Theorem C43_no_index_error :
  forall (N : NumOps) (p : nt_problem N) eps k ideal nadir s qs q resp s' e,
  nt_wf k p NV1 ideal nadir -> nt_no_index_errors p ->
  nt_reach p NV1 eps ideal nadir nt_no_restart s qs -> In q qs ->
  (forall d, resp = Some d -> nt_validate NV1 nadir q d = Ok tt) -> nt_no_restart s qs q resp ->
  nt_iterate p NV1 eps ideal nadir q resp s = (s', Raise e) -> e <> IndexErr.
Proof.
  intros N p eps k ideal nadir s qs q resp s' e WF HN HR Hq HV HA HI ->.
  destruct (step_ok p NV1 eps k ideal nadir WF HN s qs q resp s' _ (reach_ok p NV1 eps k ideal nadir WF HN s qs HR) Hq HV HA HI) as [_ G]. apply G. reflexivity.
Qed.
Print Assumptions C43_no_index_error.

(** Until a stop request is issued, step_number + n_iterations_left = n_iterations + 1,
    whatever was asked and whatever failed. *)
Theorem C43_counters :
  forall (N : NumOps) (p : nt_problem N) eps k ideal nadir s qs,
  nt_wf k p NV1 ideal nadir -> nt_no_index_errors p ->
  nt_reach p NV1 eps ideal nadir nt_no_restart s qs -> (forall x f, ~ In (NStop x f) qs) ->
  (Z.of_nat (ns_step s) + ns_left s = ns_n s + 1)%Z.
Proof.
  intros N p eps k ideal nadir s qs WF HN HR HS. refine (proj1 (reach_bal p eps ideal nadir k s qs WF HN HR _)). intros q Hq (x & f & ->). exact (HS x f Hq).
Qed.
Print Assumptions C43_counters.

(** The number of iterations is the one asked for last. *)
Definition last_asked {N : NumOps} (n : Z) (q : nt_request N) (d : nt_dict N) (q' : nt_request N) : Z :=
  match nd_n d with Some o => match as_int o with Some m => match q with NStop _ _ => n | _ => m end | None => n end | None => n end.
Theorem C43_total_is_last_asked :
  forall (N : NumOps) (p : nt_problem N) eps k ideal nadir s z lo up e qs n,
  nt_wf k p NV1 ideal nadir ->
  nt_run p NV1 eps ideal nadir last_asked 0%Z (fun _ _ => True) s (NReq z lo up e :: qs) n ->
  ns_n s = n /\ (Z.of_nat (ns_step s) + ns_left s = n + 1)%Z /\ (1 <= ns_left s)%Z.
Proof.
  intros N p eps k ideal nadir s z lo up e qs n WF H.
  set (I := fun (l : list (nt_request N)) (n : Z) (w : vw N) => vn w = n /\ match l with NReq _ _ _ _ :: _ => (Z.of_nat (vst w) + vl w = n + 1)%Z /\ (1 <= vl w)%Z | _ => True end).
  assert (G : seen p NV1 k ideal nadir 0%Z I s (NReq z lo up e) qs n).
  { apply (run_seen p NV1 eps k ideal nadir WF last_asked 0%Z (fun _ _ => True) I); [..|exact H].
    - auto.
    - intros d m x z' q _ HV (o & E1 & E2) Hm HC HP HL (b & e0 & -> & _). subst I. cbn [vn vst vl]. unfold last_asked. rewrite E1, E2. repeat split; lia.
    - cbn zeta. intros z1 lo1 up1 e1 qs0 h w d r w' (I1 & I2 & I3) _ _ _ _ _ _ _ _ _ _ HV HS. subst I.
      assert (HC : forall n' l', counters NV1 d (vn w) (vl w) = (n', l') -> n' = last_asked h (NReq z1 lo1 up1 e1) d r /\ (l' = vl w + n' - h)%Z).
      { intros n' l'. unfold counters, last_asked. destruct (nd_n d) as [o|]; [destruct (as_int o) as [m|]|]; intros E; injection E as <- <-; lia. }
      inversion HS as [n' l' HCt Hl|n' l' y q2 HCt Hl B P Hpt Hsh|n' l' x y q2 HCt Hl B P Hch Hpt Hsh|n' l' y q2 HCt Hl B S' Hpt Hsh|n' l' HCt Hl B S' P|n' l' x y q2 HCt Hl B S' P Hch Hpt Hsh]; subst w';
        destruct (HC _ _ HCt) as [C1 C2]; cbn [vn vst vl]; try (destruct Hsh as (b' & e2 & -> & _); repeat split; try congruence; lia).
      subst r. split; [exact C1|exact Logic.I].
    - intros qs0 h w d x f (I1 & _). subst I. cbn. split; [|exact Logic.I]. rewrite I1. unfold last_asked. destruct (nd_n d) as [o|]; [destruct (as_int o)|]; reflexivity. }
  destruct G as [(_ & E & _)|(L & w & HV & HO & _ & (I1 & I2 & I3) & _)]; [discriminate|].
  assert (ns_n s = vn w) by apply HV. assert (ns_left s = vl w) by apply HV. assert (ns_step s = vst w) by apply HV. lia.
Qed.
Print Assumptions C43_total_is_last_asked.

(** A session of forward steps: [n] requests, then the stop request. *)
Theorem C43_session_length :
  forall (N : NumOps) (p : nt_problem N) v eps k ideal nadir n s qs j q,
  nt_wf k p v ideal nadir ->
  nt_path p v eps ideal nadir (forward_answers n) s qs -> 1 < length qs ->
  nth_error (rev qs) j = Some q -> 1 <= j ->
  ((Z.of_nat j <= n)%Z -> exists z lo up e, q = NReq z lo up e) /\ ((n < Z.of_nat j)%Z -> exists x f, q = NStop x f).
Proof.
  intros N p v eps k ideal nadir n s qs j q WF HP HL Hj H1. destruct qs as [|q0 qs]; [cbn in HL; lia|].
  destruct (forward_len p v eps k ideal nadir WF n s q0 qs HP) as (w & _ & _ & q1 & qs1 & _ & _ & G); [intros ->; cbn in HL; lia|]. exact (G j q Hj H1).
Qed.
Print Assumptions C43_session_length.

(** Refuted: answering the initial request again (with fewer iterations) does not
    start over: the step number is not reset, and the call fails with IndexError. *)
Definition e_run1 := run3 eA NV1.
Definition e_d : nt_state F64 * nt_request F64 * nt_state F64 * nt_request F64 * nt_state F64 * nt_request F64 := (nt_init, NInit, nt_init, NInit, nt_init, NInit).
Definition e_get (r : option (nt_state F64 * nt_request F64 * nt_state F64 * nt_request F64 * nt_state F64 * nt_request F64)) := match r with Some x => x | None => e_d end.
Definition e_s1 := fst (fst (fst (fst (fst (e_get e_run1))))).
Definition e_q1 := snd (fst (fst (fst (fst (e_get e_run1))))).
Definition e_s2 := snd (fst (fst (fst (e_get e_run1)))).
Definition e_q2 := snd (fst (fst (e_get e_run1))).
Definition e_s3 := snd (fst (e_get e_run1)).
Definition e_q3 := snd (e_get e_run1).
Lemma e_step1 : e_it eA NV1 NInit (a_init 3 1 ranks12) nt_init = (e_s1, Ok (Some e_q1)).
Proof. vm_cast_no_check (eq_refl (e_s1, Ok (Some e_q1))). Qed.
Lemma e_step2 : e_it eA NV1 e_q1 a_keep e_s1 = (e_s2, Ok (Some e_q2)).
Proof. vm_cast_no_check (eq_refl (e_s2, Ok (Some e_q2))). Qed.
Lemma e_step3 : e_it eA NV1 e_q2 a_keep e_s2 = (e_s3, Ok (Some e_q3)).
Proof. vm_cast_no_check (eq_refl (e_s3, Ok (Some e_q3))). Qed.
Definition e_again := e_it eA NV1 NInit (a_init 1 1 ranks12) e_s3.
Lemma e_wf : nt_wf 2 eA NV1 eI eN.
Proof. repeat split; try (cbn; lia). intros x. unfold eA, eP, np_eval, ev2. destruct x as [|? [|? [|]]]; reflexivity. Qed.
Lemma eP_total rho pts : nt_total (eP rho pts).
Proof.
  unfold nt_total, eP, np_min, np_ecm, best, lowest, or_first. split; intros.
  - destruct (do i <- rp_disc rho w n u pts q; at_ pts i); eauto.
  - destruct (do vals <- _; _); eauto.
Qed.
Lemma total_no_index {N : NumOps} (p : nt_problem N) : nt_total p -> nt_no_index_errors p.
Proof. intros [H1 H2]. split; intros; [destruct (H1 w n u q x0) as (x & ->)|destruct (H2 i e x0) as (x & ->)]; discriminate. Qed.
(** A session is a history. *)
Lemma path_reach {N : NumOps} (p : nt_problem N) v eps ideal nadir A s qs : nt_path p v eps ideal nadir A s qs -> nt_reach p v eps ideal nadir nt_no_restart s qs.
Proof.
  intros H. unfold nt_path in H. remember tt as h eqn:Eh. clear Eh. induction H as [|s q qs h0 d s' q' HP IH HV HA HI]; [apply nt_reach_init|].
  eapply (nt_reach_step p v eps ideal nadir nt_no_restart s (q :: qs) q (Some d) s' (Ok (Some q'))); [exact IH|left; reflexivity|intros d0 E; injection E as <-; exact HV| |exact HI].
  intros ->. destruct qs as [|q1 qs]; [reflexivity|]. exfalso. refine (run_not_init _ _ _ _ _ _ _ _ _ _ _ _ HP _ eq_refl). discriminate.
Qed.
Lemma e_path1 : nt_path eA NV1 eEps eI eN (same_answers 3) e_s1 [e_q1; NInit].
Proof.
  unfold nt_path. change tt with ((fun _ _ _ _ => tt) tt (@NInit F64) (a_init 3 1 ranks12) e_q1). eapply nt_run_step; [apply nt_run_start|vm_compute; reflexivity| |exact e_step1].
  split; [intros _; exists (VInt 3); split; reflexivity|congruence].
Qed.
Definition is_init {N : NumOps} (q : nt_request N) : bool := match q with NInit => true | _ => false end.
Lemma not_init {N : NumOps} (q : nt_request N) : is_init q = false -> q <> NInit.
Proof. intros H ->. discriminate. Qed.
Lemma e_ni1 : is_init e_q1 = false. Proof. vm_compute. reflexivity. Qed.
Lemma e_ni2 : is_init e_q2 = false. Proof. vm_compute. reflexivity. Qed.
Lemma keep_keeps : keeps a_keep.
Proof. unfold keeps, says, a_keep; cbn. repeat split; eauto. Qed.
Lemma e_path2 : nt_path eA NV1 eEps eI eN (same_answers 3) e_s2 [e_q2; e_q1; NInit].
Proof.
  unfold nt_path. change tt with ((fun _ _ _ _ => tt) tt e_q1 a_keep e_q2). eapply nt_run_step; [exact e_path1|vm_compute; reflexivity| |exact e_step2].
  split; [intros E; exfalso; exact (not_init e_q1 e_ni1 E)|]. intros _. exact keep_keeps.
Qed.
Lemma e_path3 : nt_path eA NV1 eEps eI eN (same_answers 3) e_s3 [e_q3; e_q2; e_q1; NInit].
Proof.
  unfold nt_path. change tt with ((fun _ _ _ _ => tt) tt e_q2 a_keep e_q3). eapply nt_run_step; [exact e_path2|vm_compute; reflexivity| |exact e_step3].
  split; [intros E; exfalso; exact (not_init e_q2 e_ni2 E)|]. intros _. exact keep_keeps.
Qed.
Theorem C43_restart_refuted :
  nt_path eA NV1 eEps eI eN (same_answers 3) e_s3 [e_q3; e_q2; e_q1; NInit] /\
  nt_validate NV1 eN NInit (a_init 1 1 ranks12) = Ok tt /\
  exists s', nt_iterate eA NV1 eEps eI eN NInit (Some (a_init 1 1 ranks12)) e_s3 = (s', Raise IndexErr).
Proof.
  split; [exact e_path3|]. split; [vm_compute; reflexivity|]. exists (fst e_again). vm_cast_no_check (eq_refl (fst e_again, @Raise (option (nt_request F64)) IndexErr)).
Qed.
Print Assumptions C43_restart_refuted.

Example C43_hypotheses_met :
  nt_wf 2 eA NV1 eI eN /\ nt_no_index_errors eA /\ nt_path eA NV1 eEps eI eN (same_answers 3) e_s3 [e_q3; e_q2; e_q1; NInit] /\
  nt_reach eA NV1 eEps eI eN nt_no_restart e_s3 [e_q3; e_q2; e_q1; NInit].
Proof.
  split; [exact e_wf|]. split; [exact (total_no_index eA (eP_total e6 epts))|]. split; [exact e_path3|].
  apply (path_reach _ _ _ _ _ _ _ _ e_path3).
Qed.

(** ** C44: convergence *)
(** With unchanged preferences every request is on the segment from the nadir
    point to the solution found first: the j-th point is nadir + (j/n) (f - nadir),
    its distance 100 j/n (in percent), and after n of them the stop request has f
    and its decision vector. *)
Theorem C44_convergence :
  forall (p : nt_problem XR) eps k ideal nadir (F : list XR -> list R) n s qs,
  nt_wf k p NV1 ideal (xv nadir) -> (forall x, np_eval p x = xv (F x)) ->
  nt_path p NV1 eps ideal (xv nadir) (same_answers n) s qs -> 1 < length qs ->
  exists x w, np_min p w (xv nadir) (map (fun m => nsub m eps) ideal) (xv nadir) (np_x0 p) = Ok x /\
  forall j q, nth_error (rev qs) j = Some q -> 1 <= j ->
    let z := rbetween (INR j / IZR n) nadir (F x) in
    ((Z.of_nat j <= n)%Z -> exists lo e, q = NReq (xv z) lo (xv z) e /\ (F x <> nadir -> e = Fin (INR j / IZR n * 100)%R)) /\
    ((n < Z.of_nat j)%Z -> q = NStop (Some x) (Some (xv (F x)))).
Proof.
  intros p eps k ideal nadir F n s qs WF HF HP HL. destruct qs as [|q qs]; [cbn in HL; lia|].
  destruct (same_closed p NV1 eps k ideal (xv nadir) F nadir n WF HF eq_refl s q qs HP) as (w & wt & H1 & H2 & H3 & q1 & qs1 & _ & _ & H4); [intros ->; cbn in HL; lia|].
  exists (vx w), wt. split; [exact H1|]. intros j q' Hj H. exact (H4 j q' Hj H).
Qed.
Print Assumptions C44_convergence.

(** The n-th iteration point is the solution itself. *)
Theorem C44_last_point :
  forall (p : nt_problem XR) eps k ideal nadir (F : list XR -> list R) n s qs z lo up e,
  nt_wf k p NV1 ideal (xv nadir) -> (forall x, np_eval p x = xv (F x)) ->
  nt_path p NV1 eps ideal (xv nadir) (same_answers n) s qs ->
  nth_error (rev qs) (Z.to_nat n) = Some (NReq z lo up e) ->
  exists x w, np_min p w (xv nadir) (map (fun m => nsub m eps) ideal) (xv nadir) (np_x0 p) = Ok x /\ z = np_eval p x.
Proof.
  intros p eps k ideal nadir F n s qs z lo up e WF HF HP Hz.
  assert (Hn : (1 <= n)%Z).
  { destruct (Z.le_gt_cases 1 n) as [H|H]; [exact H|]. replace (Z.to_nat n) with 0 in Hz by lia. exfalso. destruct qs as [|q qs]; [discriminate|].
    clear -HP Hz. remember (q :: qs) as l. unfold nt_path in HP. clear Heql. remember tt as h. clear Heqh. induction HP as [|s q' qs' h0 d s' q'' HP IH HV HA HI]; [discriminate|].
    apply IH. apply nth_rev_cons in Hz as [Hz|[Hz _]]; [exact Hz|discriminate]. }
  assert (HL : 1 < length qs) by (assert (Z.to_nat n < length (rev qs)) by (apply nth_error_Some; congruence); rewrite rev_length in *; lia).
  destruct (C44_convergence p eps k ideal nadir F n s qs WF HF HP HL) as (x & w & H1 & H2). exists x, w. split; [exact H1|].
  destruct (H2 _ _ Hz ltac:(lia)) as [H3 _]. destruct (H3 ltac:(lia)) as (lo' & e' & E & _). injection E as -> -> -> ->. rewrite HF. f_equal.
  rewrite INR_IZR_INZ, Z2Nat.id by lia. unfold rbetween. replace (IZR n / IZR n)%R with 1%R by (field; apply not_0_IZR; lia). replace (1 - 1)%R with 0%R by ring. apply rcomb_1_0.
  destruct WF as (_ & _ & W2 & _ & W4). specialize (W4 x). rewrite HF, xv_length in W4. rewrite xv_length in W2. congruence.
Qed.
Print Assumptions C44_last_point.

(** A session on exact numbers: every objective vector is (0, 0). *)
Definition cP : nt_problem XR := MkNP (fun _ => xv [0; 0]%R) None [] (fun _ _ _ _ _ => Ok []) (fun _ _ _ => Ok []).
Definition cN : list R := [1; 1]%R.
Definition cI : list XR := xv [0; 0]%R.
Definition cA (n : Z) : nt_dict XR := MkND (Some (VInt n)) None None None (Some (VInt 1)) (Some (PArr (xv [1; 2]%R))).
Definition cK : nt_dict XR := MkND None (Some (VBool false)) (Some (VBool false)) (Some (VBool true)) None None.
Lemma c_wf v : length (nt_start v (xv cN)) = 2 -> nt_wf 2 cP v cI (xv cN).
Proof. intros H. repeat split; auto. Qed.
Lemma c_total : nt_total cP.
Proof. split; intros; exists []; reflexivity. Qed.
Lemma c_valid n : (1 <= n)%Z -> nt_validate NV1 (xv cN) NInit (cA n) = Ok tt.
Proof.
  intros Hn. cbn [nt_validate cA nd_n nd_back nd_prev]. unfold nt_check_pref. cbn [nd_method nd_info cA].
  assert (E : nt1_check (length (xv cN)) (VInt 1) (PArr (xv [1; 2]%R) : nt_info XR) = Ok tt).
  { apply ranks_check; [reflexivity|cbn; lia|]. cbn [cN xv map length]. split; [lia|]. split; [repeat constructor; cbn; lra|]. constructor. lra. }
  rewrite E. cbn [rbind]. unfold nt_check_n. cbn [as_int]. destruct (Z.ltb_spec n 1); [lia|reflexivity].
Qed.
Lemma c_session m n : 1 <= m -> (1 <= n)%Z -> exists s qs, length qs = S m /\ nt_path cP NV1 (Fin 1 : XR) cI (xv cN) (same_answers n) s qs.
Proof.
  intros Hm Hn. assert (WF : nt_wf 2 cP NV1 cI (xv cN)) by (apply c_wf; reflexivity).
  assert (mon : forall s qs, nt_path cP NV1 (Fin 1 : XR) cI (xv cN) (same_answers n) s qs -> nt_path cP NV1 (Fin 1 : XR) cI (xv cN) (any_answers NV1) s qs).
  { intros s qs H. refine (run_weaken _ _ _ _ _ _ _ _ _ _ _ _ _ H). intros; exact Logic.I. }
  induction m as [|m IH]; [lia|]. destruct m as [|m].
  - destruct (progress cP NV1 (Fin 1 : XR) 2 cI (xv cN) WF c_total nt_init NInit [] (cA n)) as (s' & q' & E).
    + apply nt_run_start. + apply c_valid, Hn. + exact Logic.I. + cbn [complete]. unfold usable. cbn [cA nd_method nd_info]. eexists _, _, _. repeat split; reflexivity.
    + exists s', [q'; NInit]. split; [reflexivity|]. unfold nt_path. change tt with ((fun _ _ _ _ => tt) tt (@NInit XR) (cA n) q'). eapply nt_run_step; [apply nt_run_start|apply c_valid, Hn| |exact E].
      split; [intros _; exists (VInt n); split; reflexivity|congruence].
  - destruct IH as (s & qs & HL & HP); [lia|]. destruct qs as [|q qs]; [discriminate|].
    assert (Hq : q <> NInit).
    { apply (run_not_init _ _ _ _ _ _ _ _ _ _ _ _ HP). intros ->. cbn in HL. lia. }
    assert (HV : nt_validate NV1 (xv cN) q cK = Ok tt) by (destruct q; [congruence|reflexivity..]).
    assert (HK : keeps cK) by (unfold keeps, says, cK; cbn; repeat split; eauto).
    destruct (progress cP NV1 (Fin 1 : XR) 2 cI (xv cN) WF c_total s q qs cK (mon _ _ HP) HV Logic.I) as (s' & q' & E).
    { destruct q; cbn [complete]; auto; [congruence|]. split; [intros (v & E & T); injection E as <-; discriminate|intros (v & E & T); injection E as <-; discriminate]. }
    exists s', (q' :: q :: qs). split; [cbn in *; lia|]. unfold nt_path. change tt with ((fun _ _ _ _ => tt) tt q cK q'). eapply nt_run_step; [exact HP|exact HV| |exact E].
    split; [contradiction|auto].
Qed.
Example C44_hypotheses_met : exists s qs,
  nt_wf 2 cP NV1 cI (xv cN) /\ nt_path cP NV1 (Fin 1 : XR) cI (xv cN) (same_answers 3) s qs /\ length qs = 5.
Proof. destruct (c_session 4 3) as (s & qs & HL & HP); [lia|lia|]. exists s, qs. split; [apply c_wf; reflexivity|]. split; [exact HP|exact HL]. Qed.

(** ** C45: no objective is impaired *)
(** If the optimizer returns a solution that is nowhere worse than the reference
    point whenever there is one, the iteration points never get worse along the
    steps taken, and the final solution is nowhere worse than the last of them. *)
Theorem C45_monotone :
  forall (p : nt_problem XR) v eps k ideal nadir (F : list XR -> list R) s0 s q qs st,
  nt_wf k p v ideal nadir -> (forall x, np_eval p x = xv (F x)) -> nt_start v nadir = xv s0 ->
  (forall w r x, (exists y, rvle (F y) r) -> np_min p w nadir (map (fun m => nsub m eps) ideal) (xv r) (np_x0 p) = Ok x -> rvle (F x) r) ->
  (exists y, rvle (F y) s0) ->
  nt_trail p v eps ideal nadir (any_answers v) s (q :: qs) st -> qs <> [] ->
  exists z zs x f, st = map xv (z :: zs) /\ StronglySorted rvle (z :: zs) /\ last zs [] = s0 /\
    (** the current projection: the attributes _xs and _fs at the current step *)
    nth_error (ns_xs s) (ns_step s) = Some (Some x) /\ nth_error (ns_fs s) (ns_step s) = Some (Some (xv f)) /\ f = F x /\ rvle f z /\
    (forall z' lo up e, q = NReq z' lo up e -> z' = xv z) /\
    (forall x' f', q = NStop x' f' -> x' = Some x /\ f' = Some (xv f)).
Proof.
  intros p v eps k ideal nadir F s0 s q qs st WF HF Hs0 HP H0 HT Hq.
  destruct (trail_mono p v eps k ideal nadir F s0 WF HF Hs0 HP H0 s q qs st HT) as [(E & _)|(L & w & V1 & V2 & V3 & (z0 & z & f & rest & E1 & E2 & E3 & -> & SS & Hf & HL) & V5)]; [contradiction|].
  exists z, (z0 :: rest), (vx w), f. split; [reflexivity|]. split; [exact SS|]. split; [rewrite last_cons; exact HL|].
  destruct V1 as ((((Est & _) & _) & Ex & Ef) & _). rewrite <- Est in Ex, Ef.
  split; [exact Ex|]. split; [rewrite <- E3; exact Ef|]. split; [apply xv_inj; rewrite <- HF; congruence|]. split; [exact Hf|]. split.
  - intros z' lo up e ->. destruct V5 as [(b & e' & E & _)|E]; [|discriminate]. injection E as -> _ _ _. exact E2.
  - intros x g ->. destruct V5 as [(b & e' & E & _)|E]; [discriminate|]. injection E as -> ->. split; [reflexivity|rewrite E3; reflexivity].
Qed.
Print Assumptions C45_monotone.

(** A short step back moves the point half of the way to the previous one. *)
Theorem C45_short_step :
  forall (p : nt_problem XR) v eps k ideal nadir (F : list XR -> list R) s0 s z lo up e qs st d s' z' lo' up' e',
  nt_wf k p v ideal nadir -> (forall x, np_eval p x = xv (F x)) -> nt_start v nadir = xv s0 ->
  (forall w r x, (exists y, rvle (F y) r) -> np_min p w nadir (map (fun m => nsub m eps) ideal) (xv r) (np_x0 p) = Ok x -> rvle (F x) r) ->
  (exists y, rvle (F y) s0) ->
  nt_trail p v eps ideal nadir (any_answers v) s (NReq z lo up e :: qs) st ->
  nt_validate v nadir (NReq z lo up e) d = Ok tt -> any_answers v (NReq z lo up e) d -> says (nd_back d) true -> says (nd_short d) true ->
  nt_iterate p v eps ideal nadir (NReq z lo up e) (Some d) s = (s', Ok (Some (NReq z' lo' up' e'))) ->
  exists r r0, z = xv r /\ nth_error st 1 = Some (xv r0) /\ z' = xv (rcomb (1 / 2) r (1 / 2) r0) /\ rvle r (rcomb (1 / 2) r (1 / 2) r0) /\ rvle (rcomb (1 / 2) r (1 / 2) r0) r0.
Proof.
  intros p v eps k ideal nadir F s0 s z lo up e qs st d s' z' lo' up' e' WF HF Hs0 HP H0 HT HV HA HB HS HI.
  destruct (short_mono p v eps k ideal nadir F s0 WF HF Hs0 HP H0 s z lo up e qs st d s' z' lo' up' e' HT HV HA HB HS HI) as (r & r0 & r' & A1 & A2 & A3 & -> & A5 & A6).
  exists r, r0. auto.
Qed.
Print Assumptions C45_short_step.

(** An exact minimizer of the achievement function can impair an objective, but by
    no more than rho * k divided by its weight. *)
Theorem C45_impairment_bound :
  forall (p : nt_problem XR) rho eps ideal nadir (F : list XR -> list R) w q x i wi fi qi,
  let ut := map (fun m => m - eps)%R ideal in
  (forall x, np_eval p x = xv (F x)) -> (forall x, length (F x) = length nadir) ->
  length ideal = length nadir -> length q = length nadir -> length w = length nadir ->
  (0 <= rho)%R -> Forall (fun a => (0 <= a)%R) w -> Forall2 (fun m n => m - eps < n)%R ideal nadir -> rvle q nadir -> rvle ut (F x) ->
  (exists y, rvle (F y) q) ->
  np_min p (xv w) (xv nadir) (xv ut) (xv q) (np_x0 p) = Ok x ->
  (forall y a b, rp_asf (Fin rho : XR) (xv w) (xv nadir) (xv ut) (np_eval p x) (xv q) = Ok a ->
                 rp_asf (Fin rho : XR) (xv w) (xv nadir) (xv ut) (np_eval p y) (xv q) = Ok b -> nleb a b = true) ->
  nth_error w i = Some wi -> nth_error (F x) i = Some fi -> nth_error q i = Some qi ->
  (wi * (fi - qi) <= rho * INR (length nadir))%R.
Proof.
  intros p rho eps ideal nadir F w q x i wi fi qi ut HF HL Li Lq Lw Hr Hw Hgap Hqn Hut (y & Hy) HX HM Ew Ef Eq.
  pose proof (gap_pos ideal nadir eps Hgap) as Hd. fold ut in Hd.
  assert (HZ : Forall (fun a => a <> 0%R) (rsub nadir ut)) by (eapply Forall_impl; [|exact Hd]; cbn; intros; lra).
  assert (Lu : length ut = length nadir) by (unfold ut; rewrite map_length; exact Li).
  assert (Hpos : 0 < length nadir) by (rewrite <- Lq; assert (i < length q) by (apply nth_error_Some; congruence); lia).
  assert (G : (rasf rho w nadir ut (F x) q <= 0)%R).
  { apply Rle_trans with (rasf rho w nadir ut (F y) q); [|apply rasf_nonpos; auto; congruence].
    assert (K : @nleb XR (Fin (rasf rho w nadir ut (F x) q)) (Fin (rasf rho w nadir ut (F y) q)) = true); [|apply xleb_fin in K; exact K].
    apply (HM y); rewrite HF; apply rp_asf_xr; rewrite ?HL; auto. }
  apply Rle_trans with (rho * - rlsum (zipw Rdiv (rsub (F x) q) (rsub nadir ut)))%R; [apply (impair rho w nadir ut (F x) q i); assumption|].
  apply Rmult_le_compat_l; [exact Hr|]. rewrite <- Lq. apply gain_bound; [exact Hd|rewrite HL; congruence|congruence|exact Hut|exact Hqn].
Qed.
Print Assumptions C45_impairment_bound.

(** Refuted for the exact minimizer: with (0.1 %, 99.9 %) and then (99.9 %, 0.1 %)
    the second iteration point is worse in the first objective. *)
Definition f01 : F64 := 0x1.999999999999ap-4%float.
Definition f999 : F64 := 0x1.8f9999999999ap+6%float.
Definition ipts : list (list F64) := [[0x1.fffffca501acbp-1; 0x1.ccccccccccccdp-1]; [1; 0]; [0; 1]]%float.
Definition iP : nt_problem F64 := eP e6 ipts.
Definition oq (r : res (option (nt_request F64))) : nt_request F64 := match r with Ok (Some q) => q | _ => NInit end.
Definition a_new (i : nt_info F64) : nt_dict F64 := MkND None (Some (VBool false)) (Some (VBool false)) (Some (VBool false)) (Some (VInt 2)) (Some i).
Definition i_1 := e_it iP NV1 NInit (a_init 2 2 (PArr [f01; f999])) nt_init.
Definition i_2 := e_it iP NV1 (oq (snd i_1)) (a_new (PArr [f999; f01])) (fst i_1).
Definition point (q : nt_request F64) : list F64 := match q with NReq z _ _ _ => z | _ => [] end.
Definition first_gt (a b : list F64) : bool := match a, b with x :: _, y :: _ => nltb y x | _, _ => false end.
Theorem C45_impaired_refuted :
  nt_validate NV1 eN NInit (a_init 2 2 (PArr [f01; f999])) = Ok tt /\
  nt_iterate iP NV1 eEps eI eN NInit (Some (a_init 2 2 (PArr [f01; f999]))) nt_init = (fst i_1, Ok (Some (oq (snd i_1)))) /\
  nt_validate NV1 eN (oq (snd i_1)) (a_new (PArr [f999; f01])) = Ok tt /\
  nt_iterate iP NV1 eEps eI eN (oq (snd i_1)) (Some (a_new (PArr [f999; f01]))) (fst i_1) = (fst i_2, Ok (Some (oq (snd i_2)))) /\
  first_gt (point (oq (snd i_2))) (point (oq (snd i_1))) = true.
Proof.
  split; [vm_compute; reflexivity|]. split; [vm_cast_no_check (eq_refl (fst i_1, Ok (Some (oq (snd i_1)))))|].
  split; [vm_compute; reflexivity|]. split; [vm_cast_no_check (eq_refl (fst i_2, Ok (Some (oq (snd i_2)))))|].
  vm_compute. reflexivity.
Qed.
Print Assumptions C45_impaired_refuted.

(** ** C46: preferences and weights *)
(** Exactly which ranks and percentages are accepted (exact arithmetic). *)
Theorem C46_accepted_ranks :
  forall (nadir : list XR) n (r : list R) sh i,
  0 < length nadir -> i = PArr (xv r) \/ i = PList (xv r) ->
  (nt_validate NV1 nadir NInit (MkND (Some (VInt n)) None sh None (Some (VInt 1)) (Some i)) = Ok tt <->
   (1 <= n)%Z /\ length nadir <= length r /\ Forall (fun x => (x <= IZR (Z.of_nat (length nadir)))%R) r /\ Exists (fun x => (1 <= x)%R) r).
Proof.
  intros nadir n r sh i Hk Hi. unfold nt_validate, nt_check_pref. cbn [nd_n nd_back nd_prev nd_method nd_info].
  destruct (ranks_check (length nadir) r (VInt 1) eq_refl Hk) as [A1 A2].
  assert (E : nt1_check (length nadir) (VInt 1) i = nt1_check (length nadir) (VInt 1) (PArr (xv r))) by (destruct Hi as [-> | ->]; congruence). rewrite E.
  unfold nt_check_n. cbn [as_int]. destruct (nt1_check (length nadir) (VInt 1) (PArr (xv r))) as [[]|x]; cbn [rbind].
  - destruct (Z.ltb_spec n 1); [split; [discriminate|lia]|]. split; [intros _; split; [lia|apply A1; reflexivity]|reflexivity].
  - split; [discriminate|]. intros (_ & H). apply A1 in H. discriminate.
Qed.
Print Assumptions C46_accepted_ranks.
(** For any ordered arithmetic, IEEE doubles included (ranks that are not NaN). *)
Theorem C46_accepted_ranks_any :
  forall (N : NumOps) (L : OrdLaws N) (nadir : list N) n (r : list N) sh i,
  0 < length nadir -> nan_free r -> i = PArr r \/ i = PList r ->
  (nt_validate NV1 nadir NInit (MkND (Some (VInt n)) None sh None (Some (VInt 1)) (Some i)) = Ok tt <->
   (1 <= n)%Z /\ length nadir <= length r /\ Forall (fun x => nleb x (nofZ (Z.of_nat (length nadir))) = true) r /\ Exists (fun x => nleb (nofZ 1) x = true) r).
Proof.
  intros N L nadir n r sh i Hk HN Hi. unfold nt_validate, nt_check_pref. cbn [nd_n nd_back nd_prev nd_method nd_info].
  destruct (ranks_check_any L (length nadir) r (VInt 1) HN eq_refl Hk) as [A1 A2].
  assert (E : nt1_check (length nadir) (VInt 1) i = nt1_check (length nadir) (VInt 1) (PArr r)) by (destruct Hi as [-> | ->]; congruence). rewrite E.
  unfold nt_check_n. cbn [as_int]. destruct (nt1_check (length nadir) (VInt 1) (PArr r)) as [[]|x]; cbn [rbind].
  - destruct (Z.ltb_spec n 1); [split; [discriminate|lia]|]. split; [intros _; split; [lia|apply A1; reflexivity]|reflexivity].
  - split; [discriminate|]. intros (_ & H). apply A1 in H. discriminate.
Qed.
Print Assumptions C46_accepted_ranks_any.
(** The percentages 58.8, 24.9 and 16.3 add up to 100, but not as doubles: they
    are rejected. *)
Definition tenths (l : list Z) : list F64 := map (fun z => ndiv (nofZ z : F64) (nofZ 10)) l.
Theorem C46_decimal_percentages_refuted :
  fold_right Z.add 0%Z [588; 249; 163]%Z = 1000%Z /\
  nt_validate NV1 (tenths [10; 10; 10]%Z) NInit (a_init 3 2 (PArr (tenths [588; 249; 163]%Z))) = Raise MethodExn.
Proof. split; vm_compute; reflexivity. Qed.
Print Assumptions C46_decimal_percentages_refuted.
Theorem C46_accepted_percentages :
  forall (nadir : list XR) n (r : list R) sh i,
  i = PArr (xv r) \/ i = PList (xv r) ->
  (nt_validate NV1 nadir NInit (MkND (Some (VInt n)) None sh None (Some (VInt 2)) (Some i)) = Ok tt <->
   (1 <= n)%Z /\ length nadir <= length r /\ rsum r = 100%R).
Proof.
  intros nadir n r sh i Hi. unfold nt_validate, nt_check_pref. cbn [nd_n nd_back nd_prev nd_method nd_info].
  destruct (percent_check (length nadir) r (VInt 2) eq_refl eq_refl) as [A1 A2].
  assert (E : nt1_check (length nadir) (VInt 2) i = nt1_check (length nadir) (VInt 2) (PArr (xv r))) by (destruct Hi as [-> | ->]; congruence). rewrite E.
  unfold nt_check_n. cbn [as_int]. destruct (nt1_check (length nadir) (VInt 2) (PArr (xv r))) as [[]|x]; cbn [rbind].
  - destruct (Z.ltb_spec n 1); [split; [discriminate|lia]|]. split; [intros _; split; [lia|apply A1; reflexivity]|reflexivity].
  - split; [discriminate|]. intros (_ & H). apply A1 in H. discriminate.
Qed.
Print Assumptions C46_accepted_percentages.

Lemma percent_xr (r : list R) : map (fun x : XR => ndiv x (nofZ 100)) (xv r) = xv (map (fun x => x / 100)%R r).
Proof. unfold xv. rewrite !map_map. apply map_ext. intros a. change (@ndiv XR) with xdiv. apply xdiv_fin. lra. Qed.
(** The weights used with positive ranks or percentages [r]: the reciprocals of
    r_i (nadir_i - utopian_i), with r_i / 100 for percentages; all positive. *)
Theorem C46_weights_partial :
  forall (p : nt_problem XR) eps ideal nadir (r : list R) n m i s' q,
  nt_wf (length nadir) p NV1 (xv ideal) (xv nadir) ->
  Forall2 (fun a b => a - eps < b)%R ideal nadir -> Forall (fun x => (0 < x)%R) r ->
  (m = 1%Z /\ (i = PArr (xv r) \/ i = PList (xv r))) \/ (m = 2%Z /\ i = PArr (xv r)) ->
  let d := MkND (Some (VInt n)) None None None (Some (VInt m)) (Some i) in
  nt_validate NV1 (xv nadir) NInit d = Ok tt ->
  nt_iterate p NV1 (Fin eps : XR) (xv ideal) (xv nadir) NInit (Some d) nt_init = (s', Ok (Some q)) ->
  exists w x z lo e,
    factor_weights (if (m =? 1)%Z then r else map (fun x => x / 100)%R r) nadir ideal eps w /\ Forall (fun x => (0 < x)%R) w /\
    np_min p (xv w) (xv nadir) (xv (map (fun m => m - eps)%R ideal)) (xv nadir) (np_x0 p) = Ok x /\
    q = NReq z lo z e /\ nt_point n (xv nadir) (np_eval p x) = Ok z.
Proof.
  intros p eps ideal nadir r n m i s' q WF Hgap Hr Hm d HV HI.
  destruct (initial_step p NV1 (Fin eps : XR) (length nadir) (xv ideal) (xv nadir) WF d n q s' HV) as (x & z & lo & e & -> & Hz & (me & i' & wt & E1 & E2 & E3 & E4)).
  { exists (VInt n). split; reflexivity. } { exact HI. }
  injection E1 as <-. injection E2 as <-. cbn [nt_start] in *. rewrite utopian_xr in E3, E4. cbn [nt_weights] in E3.
  pose proof (gap_pos ideal nadir eps Hgap) as Hd.
  assert (HZ : Forall (fun a => a <> 0%R) (rsub nadir (map (fun m => m - eps)%R ideal))) by (eapply Forall_impl; [|exact Hd]; cbn; intros; lra).
  assert (Li : length ideal = length nadir) by (apply Forall2_len in Hgap; exact Hgap).
  set (r' := if (m =? 1)%Z then r else map (fun x => x / 100)%R r) in *.
  assert (Hr' : Forall (fun x => (0 < x)%R) r').
  { unfold r'. destruct (m =? 1)%Z; [exact Hr|]. apply Forall_map. eapply Forall_impl; [|exact Hr]. cbn. intros a Ha. lra. }
  assert (Hr0 : Forall (fun a => a <> 0%R) r') by (eapply Forall_impl; [|exact Hr']; cbn; intros; lra).
  assert (E : wt = nt1_weights (xv r') (xv nadir) (xv (map (fun m => m - eps)%R ideal))).
  { unfold r'. destruct Hm as [(-> & [-> | ->])|(-> & ->)]; cbn [Z.eqb Pos.eqb].
    - injection E3 as <-. reflexivity.
    - injection E3 as <-. reflexivity.
    - change (nt1_factors (VInt 2) (PArr (xv r)) (xv nadir) (xv (map (fun m => m - eps)%R ideal)) : res (list XR)) with (Ok (nt1_weights (map (fun x : XR => ndiv x (nofZ 100)) (xv r)) (xv nadir) (xv (map (fun m => m - eps)%R ideal)))) in E3.
      rewrite percent_xr in E3. injection E3 as <-. reflexivity. }
  assert (Lr : length nadir <= length r').
  { assert (Lr0 : length nadir <= length r).
    { unfold d in HV. destruct Hm as [(-> & Hi)|(-> & Hi)].
      - apply C46_accepted_ranks with (r := r) in HV; [rewrite !xv_length in HV; tauto|rewrite xv_length; apply WF|exact Hi].
      - apply C46_accepted_percentages with (r := r) in HV; [rewrite !xv_length in HV; tauto|left; exact Hi]. }
    unfold r'. destruct (m =? 1)%Z; [exact Lr0|rewrite map_length; exact Lr0]. }
  rewrite weights_xr in E by assumption. subst wt.
  eexists _, x, z, lo, e. split; [apply factor_ok; [exact Lr|exact Li]|]. split; [|split; [exact E4|split; [reflexivity|exact Hz]]].
  clear -Hr' Hd. revert Hd. generalize (rsub nadir (map (fun m => m - eps)%R ideal)). induction Hr' as [|a r' Ha Hr IH]; intros [|b g] Hd; cbn; try constructor; inversion Hd; subst; [|apply IH; assumption].
  apply Rdiv_lt_0_compat; [lra|]. apply Rmult_lt_0_compat; assumption.
Qed.
Print Assumptions C46_weights_partial.

(** Refuted: ranks 0 and negative ranks, negative percentages and percentages over
    100, and too many entries are accepted; the weight for rank 0 is infinite, for
    a negative one negative. *)
Definition w_of (i : nt_info F64) (m : Z) : list F64 := match nt_weights NV1 (VInt m) i eN (nt_utopian eI eEps) with Ok w => w | Raise _ => [] end.
Theorem C46_weights_refuted :
  nt_validate NV1 eN NInit (a_init 3 1 (PArr ([0; 1]%float : list F64))) = Ok tt /\
  nt_validate NV1 eN NInit (a_init 3 1 (PArr ([-5; 1]%float : list F64))) = Ok tt /\
  nt_validate NV1 eN NInit (a_init 3 2 (PArr ([150; -50]%float : list F64))) = Ok tt /\
  nt_validate NV1 eN NInit (a_init 3 1 (PArr ([1; 2; 2]%float : list F64))) = Ok tt /\
  (existsb (fun x : F64 => neqb x infinity) (w_of (PArr ([0; 1]%float : list F64)) 1) = true) /\
  (existsb (fun x : F64 => nltb x (nofZ 0)) (w_of (PArr ([-5; 1]%float : list F64)) 1) = true) /\
  (existsb (fun x : F64 => nltb x (nofZ 0)) (w_of (PArr ([150; -50]%float : list F64)) 2) = true).
Proof. repeat split; vm_compute; reflexivity. Qed.
Print Assumptions C46_weights_refuted.

(** ** C47: every validated answer gets a request *)
Theorem C47_progress_partial :
  forall (N : NumOps) (p : nt_problem N) eps k ideal nadir s q qs d,
  nt_wf k p NV1 ideal nadir -> nt_total p ->
  nt_path p NV1 eps ideal nadir (fun _ _ => True) s (q :: qs) -> nt_validate NV1 nadir q d = Ok tt ->
  complete_back d ->
  (** percentages come as an array *)
  (forall m r, nd_method d = Some m -> py_eq m 1 = false -> nd_info d <> Some (PList r)) ->
  exists s' q', nt_iterate p NV1 eps ideal nadir q (Some d) s = (s', Ok (Some q')).
Proof.
  intros N p eps k ideal nadir s q qs d WF HT HP HV HB HA.
  assert (HU : nt_check_pref NV1 (length nadir) d = Ok tt -> usable NV1 eps ideal nadir d).
  { unfold nt_check_pref, usable. destruct (nd_method d) as [m|] eqn:Em; [|discriminate]. destruct (nd_info d) as [i|] eqn:Ei; [|discriminate].
    unfold nt1_check. destruct (py_eq m 1) eqn:E1; cbn [orb negb].
    - intros H. apply rbind_ok in H as (n & En & H). destruct (Nat.ltb n (length nadir)); [discriminate|]. apply rbind_ok in H as (w & Ew & H). 
      destruct i; try discriminate; (eexists _, _, _; split; [reflexivity|]; split; [reflexivity|]; cbn [nt_weights]; unfold nt1_factors; rewrite E1; reflexivity).
    - destruct (py_eq m 2) eqn:E2; [|discriminate]. cbn [negb]. intros H. apply rbind_ok in H as (n & En & H). destruct (Nat.ltb n (length nadir)); [discriminate|]. apply rbind_ok in H as (w & Ew & H).
      destruct i as [r|r|r|]; try discriminate; [|exfalso; eapply HA; eauto].
      eexists _, _, _; split; [reflexivity|]; split; [reflexivity|]; cbn [nt_weights]; unfold nt1_factors; rewrite E1, E2; reflexivity. }
  apply (progress p NV1 eps k ideal nadir WF HT s q qs d); [exact HP|exact HV|exact Logic.I|].
  destruct q as [|z lo up e|x f]; cbn [complete]; [|split; [exact HB|]|exact Logic.I].
  - apply HU. apply validate_init in HV. apply HV.
  - intros (u & Eu & Tu). apply validate_req in HV as ((b & u' & _ & Eu' & _ & HC) & _). apply HU, HC. congruence.
Qed.
Print Assumptions C47_progress_partial.

(** Refuted: a step back without a short step and with the previous preferences
    returns None; without the key short_step it raises KeyError; percentages given
    as a list are accepted and raise TypeError. *)
Definition a_none : nt_dict F64 := MkND None (Some (VBool true)) (Some (VBool false)) (Some (VBool true)) None None.
Definition a_nokey : nt_dict F64 := MkND None (Some (VBool true)) None (Some (VBool true)) None None.
Definition a_list : nt_dict F64 := a_init 3 2 (PList ([50; 50]%float : list F64)).
Definition e_none := nt_iterate eA NV1 eEps eI eN e_q1 (Some a_none) e_s1.
Definition e_nokey := nt_iterate eA NV1 eEps eI eN e_q1 (Some a_nokey) e_s1.
Definition e_list := nt_iterate eA NV1 eEps eI eN NInit (Some a_list) nt_init.
Theorem C47_no_request_refuted :
  nt_path eA NV1 eEps eI eN (same_answers 3) e_s1 [e_q1; NInit] /\
  nt_validate NV1 eN e_q1 a_none = Ok tt /\ (exists s', nt_iterate eA NV1 eEps eI eN e_q1 (Some a_none) e_s1 = (s', Ok None)) /\
  nt_validate NV1 eN e_q1 a_nokey = Ok tt /\ (exists s', nt_iterate eA NV1 eEps eI eN e_q1 (Some a_nokey) e_s1 = (s', Raise KeyErr)) /\
  nt_validate NV1 eN NInit a_list = Ok tt /\ (exists s', nt_iterate eA NV1 eEps eI eN NInit (Some a_list) nt_init = (s', Raise TypeErr)).
Proof.
  split; [exact e_path1|]. split; [vm_compute; reflexivity|].
  split; [exists (fst e_none); vm_cast_no_check (eq_refl (fst e_none, @Ok (option (nt_request F64)) None))|].
  split; [vm_compute; reflexivity|]. split; [exists (fst e_nokey); vm_cast_no_check (eq_refl (fst e_nokey, @Raise (option (nt_request F64)) KeyErr))|].
  split; [vm_compute; reflexivity|]. exists (fst e_list). vm_cast_no_check (eq_refl (fst e_list, @Raise (option (nt_request F64)) TypeErr)).
Qed.
Print Assumptions C47_no_request_refuted.
Example C47_hypotheses_met : nt_wf 2 eA NV1 eI eN /\ nt_total eA /\ nt_path eA NV1 eEps eI eN (fun _ _ => True) e_s2 [e_q2; e_q1; NInit] /\ complete_back a_keep.
Proof.
  split; [exact e_wf|]. split; [exact (eP_total e6 epts)|]. split; [refine (run_weaken _ _ _ _ _ _ _ _ _ _ _ _ _ e_path2); auto|].
  intros (v & E & T). injection E as <-. discriminate.
Qed.
Lemma run_ghost {N : NumOps} (p : nt_problem N) v eps ideal nadir {G G'} g (g0 : G) g' (g0' : G') A s qs h :
  nt_run p v eps ideal nadir g g0 A s qs h -> exists h', nt_run p v eps ideal nadir g' g0' A s qs h'.
Proof. intros H. induction H as [|s q qs h d s' q' HP (h' & IH) HV HA HI]; [eexists; apply nt_run_start|]. eexists. eapply nt_run_step; eauto. Qed.
Example C45_hypotheses_met : exists s q qs st,
  nt_wf 2 cP NV1 cI (xv cN) /\ (forall x, np_eval cP x = xv [0; 0]%R) /\
  (forall (w : list XR) r x, (exists y : list XR, rvle [0; 0]%R r) -> np_min cP w (xv cN) (map (fun m => nsub m (Fin 1 : XR)) cI) (xv r) (np_x0 cP) = Ok x -> rvle [0; 0]%R r) /\
  rvle [0; 0]%R cN /\ nt_trail cP NV1 (Fin 1 : XR) cI (xv cN) (any_answers NV1) s (q :: qs) st /\ length qs = 4.
Proof.
  destruct (c_session 4 6) as (s & qs & HL & HP); [lia|lia|]. destruct qs as [|q qs]; [discriminate|].
  destruct (run_ghost _ _ _ _ _ _ _ trail_next [nt_start NV1 (xv cN)] _ _ _ _ HP) as (st & HT). exists s, q, qs, st.
  split; [apply c_wf; reflexivity|]. split; [reflexivity|]. split; [intros w r x [_ H] _; exact H|]. split; [repeat constructor; lra|].
  split; [|cbn in HL; lia]. refine (run_weaken _ _ _ _ _ _ _ _ _ _ _ _ _ HT). intros. exact Logic.I.
Qed.
Example C46_hypotheses_met : exists s' q,
  nt_validate NV1 (xv cN) NInit (cA 3) = Ok tt /\ nt_iterate cP NV1 (Fin 1 : XR) cI (xv cN) NInit (Some (cA 3)) nt_init = (s', Ok (Some q)).
Proof.
  destruct (progress cP NV1 (Fin 1 : XR) 2 cI (xv cN) (c_wf NV1 eq_refl) c_total nt_init NInit [] (cA 3)) as (s' & q' & E).
  - apply nt_run_start. - apply c_valid; lia. - exact Logic.I. - cbn [complete]. unfold usable. cbn [cA nd_method nd_info]. eexists _, _, _. repeat split; reflexivity.
  - exists s', q'. split; [apply c_valid; lia|exact E].
Qed.

(** ** C67: constraints *)
(** Refuted: solutions need not satisfy the constraints of the problem.  The
    constraints are not passed on for the solutions, so the session is the same
    whatever they are; here both attainable points violate the constraint. *)
Theorem C67_constraints_not_used_refuted :
  (forall (N : NumOps) (ev : list N -> list N) c1 c2 x0 mi ec v eps ideal nadir q r s,
     nt_iterate (MkNP ev c1 x0 mi ec) v eps ideal nadir q r s = nt_iterate (MkNP ev c2 x0 mi ec) v eps ideal nadir q r s) /\
  (** an example: the constraint f_1 - 1 >= 0 *)
  let con := fun x : list F64 => map (fun f => nsub f (nofZ 1)) (firstn 1 (ev2 x)) in
  let p := MkNP ev2 (Some con) [] (best e6 epts) (lowest epts) in
  let r := nt_iterate p NV1 eEps eI eN NInit (Some (a_init 1 1 ranks12)) nt_init in
  let r' := nt_iterate p NV1 eEps eI eN (oq (snd r)) (Some a_keep) (fst r) in
  match oq (snd r') with
  | NStop (Some x) (Some f) => existsb (fun c : F64 => nltb c (nofZ 0)) (con x) = true
  | _ => False
  end.
Proof. split; [reflexivity|]. vm_compute. reflexivity. Qed.
Print Assumptions C67_constraints_not_used_refuted.

(** ** C68: a step back from the last iteration point *)
(** The request shown last cannot be answered with a step back: whatever the
    answer says, the session ends - unless it asks for more iterations. *)
Theorem C68_last_request_ends_refuted :
  forall (N : NumOps) (p : nt_problem N) v eps k ideal nadir n s z lo up e qs d s' q',
  nt_wf k p v ideal nadir ->
  nt_path p v eps ideal nadir (forward_answers n) s (NReq z lo up e :: qs) -> Z.of_nat (length qs) = n ->
  nt_validate v nadir (NReq z lo up e) d = Ok tt -> nd_n d = None ->
  nt_iterate p v eps ideal nadir (NReq z lo up e) (Some d) s = (s', Ok (Some q')) ->
  exists x, q' = NStop (Some x) (Some (np_eval p x)).
Proof.
  intros N p v eps k ideal nadir n s z lo up e qs d s' q' WF HR Hl HV Hn HI.
  apply (forward_seen p v eps k ideal nadir WF) in HR.
  destruct HR as [(_ & E & _)|(L & w & V1 & V2 & V3 & (F1 & F2 & q1 & qs1 & F3 & F4 & _) & [(b1 & e1 & E & _)|E])]; try discriminate. injection E as -> -> -> ->. injection F3 as <- <-.
  destruct F4 as [(F4 & F5 & F6 & _)|(_ & x & f & E)]; [|discriminate].
  cbn [nt_iterate nt_resp] in HI. unfold sbind at 1 in HI. cbn [lift] in HI.
  destruct (validate_req _ _ _ _ _ _ _ HV) as ((b & u & Eb & Eu & _) & HD).
  assert (HC : vchange_ok v d w) by (unfold vchange_ok; destruct v; [exact Logic.I|]; rewrite Hn; discriminate).
  pose proof (hs_run _ _ _ _ _ _ _ (handle_view p v eps k ideal nadir WF d L w b u V2 HC HD Eb Eu) V1 HI) as (L' & w' & HS' & _).
  inversion HS' as [n' l' HC' Hl'|n' l' y q2 HC' Hl' B P Hpt Hsh|n' l' x y q2 HC' Hl' B P Hch Hpt Hsh|n' l' y q2 HC' Hl' B S' Hpt Hsh|n' l' HC' Hl' B S' P|n' l' x y q2 HC' Hl' B S' P Hch Hpt Hsh]; subst w';
    rewrite (counters_none v d _ _ Hn) in HC'; injection HC' as <- <-; try (exfalso; lia).
  exists (vx w). rewrite V3. reflexivity.
Qed.
Print Assumptions C68_last_request_ends_refuted.
(** ... and it does end: an example of a step back that is lost. *)
Definition a_short : nt_dict F64 := MkND None (Some (VBool true)) (Some (VBool true)) (Some (VBool true)) None None.
Definition e_lost := e_it eA NV1 e_q3 a_short e_s3.
Example C68_hypotheses_met :
  nt_path eA NV1 eEps eI eN (same_answers 3) e_s3 [e_q3; e_q2; e_q1; NInit] /\ nt_validate NV1 eN e_q3 a_short = Ok tt /\
  match oq (snd e_lost) with NStop _ _ => True | _ => False end.
Proof. split; [exact e_path3|]. split; vm_compute; [reflexivity|exact Logic.I]. Qed.

(** ** C69: what the constructor checks *)
(** The constructor succeeds exactly when the lengths of ideal, nadir (and start)
    agree, the starting point of NAUTILUS 2 is not worse than the nadir point in
    every objective, there are no names or one per objective, and a non-empty
    minimize list comes with names - one per objective. *)
Theorem C69_constructor_checks :
  forall (N : NumOps) v (ideal nadir : list N) names minimize,
  nt_ctor_check v ideal nadir names minimize = Ok tt <->
  length ideal = length nadir /\
  (forall start fuel, v = NV2 start fuel -> length ideal = length start /\ ~ Forall2 (fun n s => nltb n s = true) nadir start) /\
  (forall n, names = Some n -> n <> 0 -> n = length ideal) /\
  (forall m, minimize = Some m -> m <> 0 -> names = Some (length ideal)).
Proof.
  intros N v ideal nadir names minimize. unfold nt_ctor_check.
  destruct (Nat.eqb_spec (length ideal) (length nadir)) as [E1|E1]; cbn [negb]; [|split; [discriminate|intros (H & _); contradiction]].
  set (A := forall start fuel, v = NV2 start fuel -> length ideal = length start /\ ~ Forall2 (fun n s => nltb n s = true) nadir start).
  set (B := forall n, names = Some n -> n <> 0 -> n = length ideal).
  set (C := forall m, minimize = Some m -> m <> 0 -> names = Some (length ideal)).
  assert (HA : match v with
               | NV1 => Ok tt
               | NV2 start _ => if negb (Nat.eqb (length ideal) (length start)) then Raise MethodExn
                                else if forallb (fun x => x) (zipw nltb nadir start) then Raise MethodExn else Ok tt
               end = Ok tt <-> A).
  { unfold A. destruct v as [|start fuel]; [split; [discriminate|reflexivity]|].
    destruct (Nat.eqb_spec (length ideal) (length start)) as [E|E]; cbn [negb].
    - destruct (forallb (fun x => x) (zipw nltb nadir start)) eqn:EB.
      + split; [discriminate|]. intros H. destruct (H start fuel eq_refl) as [_ H2]. exfalso. apply H2. apply (forallb_id_zipw nltb nadir start); [congruence|exact EB].
      + split; [|reflexivity]. intros _ s' f' E'. injection E' as <- <-. split; [exact E|]. intros K. apply (forallb_id_zipw nltb nadir start) in K; [congruence|congruence].
    - split; [discriminate|]. intros H. destruct (H start fuel eq_refl) as [H1 _]. contradiction. }
  destruct (match v with NV1 => _ | NV2 _ _ => _ end) as [[]|e]; cbn [rbind]; [|split; [discriminate|intros (_ & H & _); apply HA in H; discriminate]].
  assert (HB : match names with Some (S n) => if Nat.eqb (S n) (length ideal) then Ok tt else Raise MethodExn | _ => Ok tt end = Ok tt <-> B).
  { unfold B. destruct names as [[|n]|]; [split; [intros _ n E; injection E as <-; congruence|reflexivity]| |split; [discriminate|reflexivity]].
    destruct (Nat.eqb_spec (S n) (length ideal)); (split; [try discriminate; intros _ m E _; congruence|]); [reflexivity|]. intros H. exfalso. apply n0. apply H; [reflexivity|lia]. }
  destruct (match names with Some (S n) => _ | _ => _ end) as [[]|e]; cbn [rbind]; [|split; [discriminate|intros (_ & _ & H & _); apply HB in H; discriminate]].
  assert (HC : match minimize with Some (S _) => match names with None => Raise TypeErr | Some n => if Nat.eqb n (length ideal) then Ok tt else Raise MethodExn end | _ => Ok tt end = Ok tt <-> C).
  { unfold C. destruct minimize as [[|m]|]; [split; [intros _ m E; injection E as <-; congruence|reflexivity]| |split; [discriminate|reflexivity]].
    destruct names as [n|]; [|split; [discriminate|intros H; specialize (H (S m) eq_refl ltac:(lia)); discriminate]].
    destruct (Nat.eqb_spec n (length ideal)); (split; [try discriminate; intros _ m' E _; congruence|]); [reflexivity|]. intros H. specialize (H (S m) eq_refl ltac:(lia)). congruence. }
  rewrite HC. intuition.
Qed.
Print Assumptions C69_constructor_checks.
(** When construction fails it fails with the method's exception, except that a
    minimize list without names raises TypeError. *)
Theorem C69_exception :
  forall (N : NumOps) v (ideal nadir : list N) names minimize,
  nt_ctor_check v ideal nadir names minimize <> Ok tt -> (minimize = None \/ names <> None) ->
  nt_ctor_check v ideal nadir names minimize = Raise MethodExn.
Proof.
  intros N v ideal nadir names minimize. unfold nt_ctor_check. destruct (negb _); [reflexivity|].
  assert (V : (match v with
              | NV1 => Ok tt
              | NV2 start _ =>
                  if negb (Nat.eqb (length ideal) (length start)) then Raise MethodExn
                  else if forallb (fun x => x) (zipw nltb nadir start) then Raise MethodExn else Ok tt
              end) = Ok tt \/ (match v with
              | NV1 => Ok tt
              | NV2 start _ =>
                  if negb (Nat.eqb (length ideal) (length start)) then Raise MethodExn
                  else if forallb (fun x => x) (zipw nltb nadir start) then Raise MethodExn else Ok tt
              end) = Raise MethodExn).
  { destruct v as [|start fuel]; auto. destruct (negb _); auto. destruct (forallb _ _); auto. }
  destruct V as [-> | ->]; cbn [rbind]; [|reflexivity].
  destruct names as [[|n]|]; cbn [rbind]; [| |].
  - destruct minimize as [[|m]|]; intros H1 H2; try (exfalso; apply H1; reflexivity). destruct (Nat.eqb _ _); [exfalso; apply H1; reflexivity|reflexivity].
  - destruct (Nat.eqb (S n) _) eqn:E; cbn [rbind]; [|reflexivity]. destruct minimize as [[|m]|]; intros H1 H2; try (exfalso; apply H1; reflexivity); rewrite E in H1; exfalso; apply H1; reflexivity.
  - destruct minimize as [[|m]|]; intros H1 [H2|H2]; try (exfalso; apply H1; reflexivity); [discriminate|exfalso; apply H2; reflexivity].
Qed.
Print Assumptions C69_exception.
(** Refuted: a minimize list of the wrong length is accepted, one without names
    raises TypeError, and NAUTILUS 2 accepts a starting point that is worse than
    the nadir point in some objective. *)
Theorem C69_bad_arguments_refuted :
  nt_ctor_check (N:=F64) NV1 eI eN (Some 2) (Some 7) = Ok tt /\
  nt_ctor_check (N:=F64) NV1 eI eN None (Some 2) = Raise TypeErr /\
  nt_ctor_check (N:=F64) (NV2 ([5; 0]%float : list F64) 10) eI eN None None = Ok tt.
Proof. repeat split; vm_compute; reflexivity. Qed.
Print Assumptions C69_bad_arguments_refuted.

(** ** C70: a call that raises *)
(** Refuted: percentages given as a list are accepted, the step forward raises
    TypeError, but the step has already been counted: the same request answered
    as it should be raises TypeError again, and so on - the session cannot go on
    - although the same answer would have worked before. *)
Definition a_badlist : nt_dict F64 := a_new (PList ([50; 50]%float : list F64)).
Definition a_good : nt_dict F64 := a_new (PArr ([50; 50]%float : list F64)).
Definition e_bad := nt_iterate eA NV1 eEps eI eN e_q1 (Some a_badlist) e_s1.
Definition e_good0 := nt_iterate eA NV1 eEps eI eN e_q1 (Some a_good) e_s1.
Definition e_good1 := nt_iterate eA NV1 eEps eI eN e_q1 (Some a_good) (fst e_bad).
Definition e_keep1 := nt_iterate eA NV1 eEps eI eN e_q1 (Some a_keep) (fst e_bad).
Theorem C70_failed_call_refuted :
  nt_path eA NV1 eEps eI eN (same_answers 3) e_s1 [e_q1; NInit] /\
  nt_validate NV1 eN e_q1 a_badlist = Ok tt /\
  nt_iterate eA NV1 eEps eI eN e_q1 (Some a_badlist) e_s1 = (fst e_bad, Raise TypeErr) /\
  (exists s' q', nt_iterate eA NV1 eEps eI eN e_q1 (Some a_good) e_s1 = (s', Ok (Some q'))) /\
  (exists s', nt_iterate eA NV1 eEps eI eN e_q1 (Some a_good) (fst e_bad) = (s', Raise TypeErr)) /\
  (exists s', nt_iterate eA NV1 eEps eI eN e_q1 (Some a_keep) (fst e_bad) = (s', Raise TypeErr)).
Proof.
  split; [exact e_path1|]. split; [vm_compute; reflexivity|].
  split; [vm_cast_no_check (eq_refl (fst e_bad, @Raise (option (nt_request F64)) TypeErr))|].
  split; [exists (fst e_good0), (oq (snd e_good0)); vm_cast_no_check (eq_refl (fst e_good0, Ok (Some (oq (snd e_good0)))))|].
  split; [exists (fst e_good1); vm_cast_no_check (eq_refl (fst e_good1, @Raise (option (nt_request F64)) TypeErr))|].
  exists (fst e_keep1); vm_cast_no_check (eq_refl (fst e_keep1, @Raise (option (nt_request F64)) TypeErr)).
Qed.
Print Assumptions C70_failed_call_refuted.

(** ** C71: the bounds shown *)
(** In any history and for any optimizers: the upper bounds of a request are its
    iteration point, lower bound i is objective i at the solution of the i-th
    epsilon-constraint problem, bounded by the iteration point. *)
Theorem C71_reported_bounds :
  forall (N : NumOps) (p : nt_problem N) v eps k ideal nadir ok s qs z lo up e,
  nt_wf k p v ideal nadir -> nt_reach p v eps ideal nadir ok s qs -> In (NReq z lo up e) qs ->
  up = z /\ length lo = k /\
  forall i, i < k -> exists x, np_ecm p i (drop_at i z) (np_x0 p) = Ok x /\ nth_error lo i = nth_error (np_eval p x) i.
Proof.
  intros N p v eps k ideal nadir ok s qs z lo up e WF HR Hin. pose proof (reach_reported p v eps k ideal nadir WF ok s qs HR) as G.
  rewrite Forall_forall in G. destruct (G _ Hin z lo up e eq_refl) as (H1 & H2 & H3). auto.
Qed.
Print Assumptions C71_reported_bounds.

(** With exact optimizers: the bounds of a request enclose every attainable vector
    that is nowhere worse than the iteration point. *)
Theorem C71_bounds_enclose :
  forall (N : NumOps) (p : nt_problem N) v eps k ideal nadir ok s qs z lo up e y,
  nt_wf k p v ideal nadir ->
  (forall i b x, i < k -> np_ecm p i b (np_x0 p) = Ok x -> forall y c c', vle (drop_at i (np_eval p y)) b ->
     nth_error (np_eval p x) i = Some c -> nth_error (np_eval p y) i = Some c' -> nleb c c' = true) ->
  nt_reach p v eps ideal nadir ok s qs -> In (NReq z lo up e) qs -> vle (np_eval p y) z ->
  vle lo (np_eval p y) /\ vle (np_eval p y) up.
Proof.
  intros N p v eps k ideal nadir ok s qs z lo up e y WF HE HR Hin Hy.
  pose proof (reach_reported p v eps k ideal nadir WF ok s qs HR) as G. rewrite Forall_forall in G. destruct (G _ Hin z lo up e eq_refl) as (-> & HB).
  split; [|exact Hy]. destruct WF as (_ & _ & _ & _ & W). apply (bounds_enclose p k W HE) with (z := z); auto.
Qed.
Print Assumptions C71_bounds_enclose.

(** ... and of two requests, the one with the better iteration point has the
    tighter lower bounds. *)
Theorem C71_bounds_tighten :
  forall (N : NumOps) (L : OrdLaws N) (p : nt_problem N) v eps k ideal nadir ok s qs z lo up e z' lo' up' e',
  nt_wf k p v ideal nadir ->
  (forall i b x, i < k -> np_ecm p i b (np_x0 p) = Ok x -> forall y c c', vle (drop_at i (np_eval p y)) b ->
     nth_error (np_eval p x) i = Some c -> nth_error (np_eval p y) i = Some c' -> nleb c c' = true) ->
  (forall i b x, i < k -> (exists y, vle (drop_at i (np_eval p y)) b) -> np_ecm p i b (np_x0 p) = Ok x -> vle (drop_at i (np_eval p x)) b) ->
  nt_reach p v eps ideal nadir ok s qs -> In (NReq z lo up e) qs -> In (NReq z' lo' up' e') qs ->
  vle z' z -> (exists y, vle (np_eval p y) z') -> vle lo lo' /\ vle up' up.
Proof.
  intros N L p v eps k ideal nadir ok s qs z lo up e z' lo' up' e' WF HE HFe HR Hin Hin' Hz HY.
  pose proof (reach_reported p v eps k ideal nadir WF ok s qs HR) as G. rewrite Forall_forall in G.
  destruct (G _ Hin z lo up e eq_refl) as (-> & HB). destruct (G _ Hin' z' lo' up' e' eq_refl) as (-> & HB').
  split; [|exact Hz]. exact (bounds_tighten L p k HE HFe z lo z' lo' HB HB' Hz HY).
Qed.
Print Assumptions C71_bounds_tighten.
Example C71_hypotheses_met : exists s qs,
  nt_reach cP NV1 (Fin 1 : XR) cI (xv cN) nt_no_restart s qs /\ length qs = 5 /\
  (forall i b x, i < 2 -> np_ecm cP i b (np_x0 cP) = Ok x -> forall y c c', vle (drop_at i (np_eval cP y)) b ->
     nth_error (np_eval cP x) i = Some c -> nth_error (np_eval cP y) i = Some c' -> nleb c c' = true) /\
  (forall i b x, i < 2 -> (exists y, vle (drop_at i (np_eval cP y)) b) -> np_ecm cP i b (np_x0 cP) = Ok x -> vle (drop_at i (np_eval cP x)) b).
Proof.
  destruct (c_session 4 6) as (s & qs & HL & HP); [lia|lia|]. exists s, qs. split; [eapply path_reach; exact HP|]. split; [exact HL|]. split.
  - intros i b x _ _ y c c' _ E1 E2. change (nth_error (xv [0; 0]%R : list XR) i = Some c) in E1. change (nth_error (xv [0; 0]%R : list XR) i = Some c') in E2.
    assert (c = c') by congruence. subst c'. rewrite xv_nth in E1. destruct (nth_error [0; 0]%R i) as [r|]; [|discriminate]. injection E1 as <-. apply xleb_fin. lra.
  - intros i b x _ (y & Hy) _. exact Hy.
Qed.
