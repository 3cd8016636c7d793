(** * C101: the navigation follows the reference point of the answer. *)
From Coq Require Import ZArith List Bool Lia Reals Lra Floats.
From Verif Require Import Num NumXR NumF64 Py Np Spec NpFacts XRFacts PAsf MNavigator SNavigator PENautilus PNavigator PNavigator2
  PNavigator3 PNavigator4 PNavigator5 PNavigator6 PNavigator7 PNavigator8 PropsNavigator.
Import ListNotations.
Local Open Scope R_scope.

(** [x] counts as equal to the earlier [y]: numbers that differ by at most
    1e-8 + 1e-5 |y|, or the same infinity; NaN is never close to anything. *)
Definition close (x y : xr) : Prop :=
  match x, y with
  | Fin a, Fin b => Rabs (a - b) <= / 100000000 + / 100000 * Rabs b
  | XPInf, XPInf | XMInf, XMInf => True
  | _, _ => False
  end.


Lemma isclose_close (x y : XR) : isclose x y = true <-> close x y.
Proof.
  unfold isclose, nfinite.
  destruct x as [| | |a], y as [| | |b]; try (cbn; intuition congruence);
    try (cbn; rewrite andb_false_r; intuition congruence).
  change (@nsub XR (Fin a) (Fin a)) with (Fin (a - a) : XR). change (@nsub XR (Fin b) (Fin b)) with (Fin (b - b) : XR).
  change (@nsub XR (Fin a) (Fin b)) with (Fin (a - b) : XR).
  rewrite (xisnan_fin (a - a)), (xisnan_fin (b - b)). cbn [negb andb]. rewrite !coef_xr by lia.
  change (@nabs XR (Fin (a - b))) with (Fin (Rabs (a - b)) : XR). change (@nabs XR (Fin b)) with (Fin (Rabs b) : XR).
  change (@nmul XR (Fin (1 / 100000)) (Fin (Rabs b))) with (Fin (1 / 100000 * Rabs b) : XR).
  change (@nadd XR (Fin (1 / 100000000)) (Fin (1 / 100000 * Rabs b))) with (Fin (1 / 100000000 + 1 / 100000 * Rabs b) : XR).
  rewrite (xleb_fin (Rabs (a - b)) (1 / 100000000 + 1 / 100000 * Rabs b)). cbn [close].
  replace (1 / 100000000) with (/ 100000000) by (field; lra). replace (1 / 100000) with (/ 100000) by (field; lra). tauto.
Qed.

Lemma close_length (a b : list XR) : Forall2 close a b -> length a = length b.
Proof. revert b. induction a as [|x a IH]; intros b H; inversion H; subst; [reflexivity|]. cbn [length]. f_equal. apply IH. assumption. Qed.
Lemma allclose_close (a b : list XR) : length a = length b ->
  exists r, allclose a b = Ok r /\ (r = true <-> Forall2 close a b).
Proof.
  intros Hl. unfold allclose. rewrite bcast2_eq by auto. cbn [rmap]. eexists. split; [reflexivity|]. revert b Hl.
  induction a as [|x a IH]; intros [|y b] Hl; try discriminate; cbn [zipw forallb].
  - split; auto.
  - injection Hl as Hl. specialize (IH b Hl). rewrite andb_true_iff, isclose_close. split.
    + intros [H1 H2]. constructor; [exact H1|apply IH; exact H2].
    + intros H. inversion H; subst. split; [assumption|apply IH; assumption].
Qed.

(** ** C101 *)
(** What is true.  The method remembers the reference point it used last ([r0]); an
    answer that differs from it in some objective by more than 1e-8 + 1e-5 times its
    entry there redirects the navigation to the reachable solution best for the answer,
    and so does the first answer; one that does not differ that much changes nothing. *)
Theorem C101_redirects_partial :
  forall k (asf : @asf_fn XR) front ideal nadir vars s qs c d ref s' c',
  setup k front ideal nadir vars -> nv_reach asf front ideal nadir vars s qs -> In (NReq c) qs ->
  nv_validate c d = Ok tt -> forward d -> nd_ref d = Some ref -> proper_asf asf front ideal nadir ref ->
  nv_iterate asf (NReq c) (Some d) s = (s', Ok (NReq c')) ->
  (ns_step s = 1%Z \/ (exists r0, ns_ref s = Some r0 /\ length r0 = length ref /\ ~ Forall2 close ref r0) ->
     ns_ref s' = Some ref /\
     exists p, ns_proj s' = Some p /\ best_projection asf front ideal nadir ref (ns_idx s) (ns_bounds s) p) /\
  (ns_step s <> 1%Z -> forall r0, ns_ref s = Some r0 -> Forall2 close ref r0 ->
     ns_ref s' = Some r0 /\ ns_proj s' = ns_proj s).
Proof.
  intros k asf front ideal nadir vars s qs c d ref s' c' Hs Hr Hin Hv Hf Hd Hp Hi.
  destruct (forward_proj XR_ord _ _ _ _ _ _ _ _ _ _ _ _ _ Hs Hr Hin Hv Hf Hd Hi) as (p & Q1 & Q2 & Q3).
  split.
  - intros Hfr.
    assert (Hfr' : fresh s ref).
    { destruct Hfr as [E|(r0 & E1 & E2 & E3)]; [left; exact E|right]. exists r0. split; [exact E1|].
      destruct (allclose_close ref r0 (eq_sym E2)) as (r & Er & Hiff). rewrite Er. destruct r; [exfalso; tauto|reflexivity]. }
    split; [|eapply C27_projection; eauto; apply XR_ord].
    destruct Q3 as [(_ & H & _)|(Hn & _ & _ & r0 & E1 & E2)]; [exact H|]. destruct Hfr' as [E|(r1 & E3 & E4)]; congruence.
  - intros Hn r0 E1 E2. pose proof (allclose_close ref r0 (close_length _ _ E2)) as (r & Er & Hiff).
    destruct Q3 as [(_ & _ & [E|(r1 & E3 & E4)])|(_ & E & E' & _)]; [congruence| |split; congruence].
    assert (r1 = r0) by congruence. subst r1. rewrite E4 in Er. injection Er as <-. apply Hiff in E2. discriminate.
Qed.
Print Assumptions C101_redirects_partial.

(** A session of forward answers whose reference points are all close to the first one. *)
Lemma stuck_session k (asf : @asf_fn XR) front ideal nadir vars (q0 : list XR) ds s c :
  setup k front ideal nadir vars -> nv_session asf front ideal nadir vars ds s c -> ds <> [] ->
  proper_asf asf front ideal nadir q0 ->
  (exists d0 ds', ds = d0 :: ds' /\ nd_ref d0 = Some q0) ->
  Forall (fun d : nv_dict XR => forward d /\ exists q, nd_ref d = Some q /\ Forall2 close q q0) ds ->
  (ns_step s = 1 + Z.of_nat (Nat.min (length ds) 99))%Z /\ ns_ref s = Some q0 /\
  exists p, ns_proj s = Some p /\ best_projection asf front ideal nadir q0 (IList (seq 0 (length front))) (map (fun _ => XNan) ideal) p.
Proof.
  intros Hs H. induction H as [c Hc|ds s c d s' c' H IH Hv Hit]; intros Hne Hp Hfirst Hall; [congruence|].
  apply Forall_app in Hall. destruct Hall as [Hall Hd]. inversion Hd as [|? ? [Hfwd (q & Href & Hcl)] _]; subst. clear Hd.
  destruct (session_reach XR_ord _ _ _ _ _ _ _ _ _ Hs H) as (_ & qs & Hr & Hin).
  destruct (forward_proj XR_ord _ _ _ _ _ _ _ _ _ _ _ _ _ Hs Hr Hin Hv Hfwd Href Hit) as (p & Q1 & Q2 & Q3).
  destruct (session_step XR_ord _ _ _ _ _ _ _ _ _ _ _ _ Hs H Hfwd Hv Hit) as (G & ref & speed & ub & Eref & _ & _ & Hl & Hspec).
  pose proof (wf_count _ _ (g_wf _ _ _ _ _ _ _ G)) as Hcnt.
  assert (Hstep : (ns_step s = 1 + Z.of_nat (Nat.min (length ds) 99) -> ns_step s' = 1 + Z.of_nat (Nat.min (length (ds ++ [d])) 99))%Z).
  { intros E. rewrite app_length. cbn [length]. clear Q3 Q1.
    destruct Hspec as (again & pi & proj & nav & rows & lb & ub' & dist & idx & _ & _ & _ & _ & _ & _ & _ & _ & -> & _). cbn [ns_step].
    destruct (Z.eqb_spec (ns_left s) 1); lia. }
  destruct ds as [|d0 ds0].
  - assert (E0 : s = nv_init front ideal nadir vars).
    { inversion H as [|ds ? ? ? ? ? ? ? ? E]; [reflexivity|]. destruct ds; discriminate. }
    subst s. split; [apply Hstep; reflexivity|].
    destruct Hfirst as (d1 & ds' & E & Hq0). cbn in E. injection E as <- <-. assert (q = q0) by congruence. subst q.
    destruct Q3 as [(A & B & _)|(A & _)]; [|exfalso; apply A; reflexivity].
    split; [exact B|]. exists p. split; [exact Q1|].
    exact (projection_best XR_ord k asf _ _ _ (wf_init _ _ _ _ _ Hs) Hp A).
  - destruct IH as (I1 & I2 & p0 & I3 & I4); [discriminate|exact Hp| |exact Hall|].
    { destruct Hfirst as (d1 & ds' & E & Hq0). cbn in E. injection E as <- _. exists d0, ds0. auto. }
    split; [apply Hstep; exact I1|].
    destruct Q3 as [(_ & _ & [E|(r1 & E3 & E4)])|(_ & E & E' & _)].
    + rewrite E in I1. cbn [length] in I1. lia.
    + assert (r1 = q0) by congruence. subst r1.
      destruct (allclose_close q q0 (close_length _ _ Hcl)) as (r & Er & Hiff). rewrite E4 in Er. injection Er as <-. apply Hiff in Hcl. discriminate.
    + split; [congruence|]. exists p0. split; [congruence|exact I4].
Qed.

(** The refutation, for every data set whose objectives are small numbers (both ideal and
    nadir within 5e-9 of zero: grams given in tonnes): whatever reference points the decision
    maker gives after the first one, the navigation goes on towards the solution that was
    best for the first. *)
Theorem C101_small_objectives_refuted :
  forall k (asf : @asf_fn XR) front (ideal nadir : list R) vars (q0 : list R) d0 ds s c,
  setup k front (xv ideal) (xv nadir) vars ->
  Forall (fun x => Rabs x <= / 200000000) ideal -> Forall (fun x => Rabs x <= / 200000000) nadir ->
  nv_session asf front (xv ideal) (xv nadir) vars (d0 :: ds) s c ->
  nd_ref d0 = Some (xv q0) -> proper_asf asf front (xv ideal) (xv nadir) (xv q0) ->
  Forall (fun d : nv_dict XR => forward d /\ exists q, nd_ref d = Some (xv q) /\ length q = k) (d0 :: ds) ->
  exists p, ns_proj s = Some p /\
    best_projection asf front (xv ideal) (xv nadir) (xv q0) (IList (seq 0 (length front))) (map (fun _ => XNan) (xv ideal)) p.
Proof.
  intros k asf front ideal nadir vars q0 d0 ds s c Hs Bi Bn Hn Hq0 Hp Hall.
  assert (Li : length ideal = k) by (destruct Hs as (_ & E & _); rewrite xv_length in E; exact E).
  assert (Ln : length nadir = k) by (destruct Hs as (_ & _ & E & _); rewrite xv_length in E; exact E).
  (* every answer lies in the box *)
  assert (Box : Forall (fun d : nv_dict XR => forall q, nd_ref d = Some (xv q) -> length q = k -> Forall (fun x => Rabs x <= / 200000000) q) (d0 :: ds)).
  { clear Hq0 Hp Hall. remember (d0 :: ds) as l eqn:El. clear El d0 ds. induction Hn as [c Hc|ds s c d s' c' H IH Hv Hit]; [constructor|].
    apply Forall_app. split; [exact IH|]. constructor; [|constructor]. intros q Hq Lq.
    destruct (session_reach XR_ord _ _ _ _ _ _ _ _ _ Hs H) as (E & qs & Hr & Hin).
    pose proof (ginv_reach XR_ord _ _ _ _ _ _ _ _ Hs Hr) as G.
    assert (Ei : nc_ideal c = xv ideal) by (unfold nv_request_of in E; injection E as <-; cbn [nc_ideal]; apply (g_ideal _ _ _ _ _ _ _ G)).
    assert (En : nc_nadir c = xv nadir) by (unfold nv_request_of in E; injection E as <-; cbn [nc_nadir]; apply (g_nadir _ _ _ _ _ _ _ G)).
    apply (C22_accepts_exactly_partial XR c d k) in Hv; [| | |].
    - destruct Hv as (ref & speed & z & b & ub & b' & -> & Hb & _). cbn [nd_ref] in Hq. injection Hq as ->.
      rewrite Ei, En in Hb. apply Forall_forall. intros x Hx. apply In_nth_error in Hx. destruct Hx as [j Hj].
      destruct (nth_error ideal j) as [lo|] eqn:E1; [|apply nth_error_None in E1; assert (j < length q)%nat by (apply nth_error_Some; congruence); lia].
      destruct (nth_error nadir j) as [hi|] eqn:E2; [|apply nth_error_None in E2; assert (j < length q)%nat by (apply nth_error_Some; congruence); lia].
      destruct (Hb j (Fin x) (Fin lo) (Fin hi)) as [H1 H2]; [unfold xv; rewrite nth_error_map, Hj; reflexivity|unfold xv; rewrite nth_error_map, E1; reflexivity|unfold xv; rewrite nth_error_map, E2; reflexivity|].
      apply xltb_fin_false in H1. apply xltb_fin_false in H2.
      rewrite Forall_forall in Bi, Bn. pose proof (Bi _ (nth_error_In _ _ E1)) as H3. pose proof (Bn _ (nth_error_In _ _ E2)) as H4.
      cbn beta in H3, H4. revert H3 H4. unfold Rabs. repeat destruct (Rcase_abs _); lra.
    - rewrite Ei, xv_length. exact Li.
    - rewrite En, xv_length. exact Ln.
    - intros r E3. rewrite Hq in E3. injection E3 as <-. rewrite xv_length. exact Lq. }
  assert (Hall' : Forall (fun d : nv_dict XR => forward d /\ exists q, nd_ref d = Some q /\ Forall2 close q (xv q0)) (d0 :: ds)).
  { rewrite Forall_forall in Hall, Box |- *.
    destruct (Hall d0 (or_introl eq_refl)) as [_ (q1 & E1 & L1)]. assert (xv q1 = xv q0) as E by congruence.
    assert (length q0 = k) as L0 by (rewrite <- (xv_length q0), <- E, xv_length; exact L1).
    pose proof (Box d0 (or_introl eq_refl) q0 Hq0 L0) as B0.
    intros d Hd. destruct (Hall d Hd) as [F1 (q & E2 & L2)]. split; [exact F1|]. exists (xv q). split; [exact E2|].
    pose proof (Box d Hd q E2 L2) as Bq. clear - L0 L2 B0 Bq. assert (L : length q = length q0) by congruence. clear L0 L2.
    revert q0 L B0. induction q as [|x q IH]; intros [|y q0] L B0; try discriminate; cbn [xv map]; constructor.
    - cbn [close]. apply Forall_inv in B0. apply Forall_inv in Bq. cbn beta in B0, Bq.
      assert (0 <= / 100000 * Rabs y) by (apply Rmult_le_pos; [lra|apply Rabs_pos]).
      assert (Rabs (x - y) <= Rabs x + Rabs y) by (unfold Rminus; rewrite <- (Rabs_Ropp y); apply Rabs_triang). lra.
    - apply IH; [exact (Forall_inv_tail Bq)|cbn in L; lia|exact (Forall_inv_tail B0)]. }
  destruct (stuck_session k asf front (xv ideal) (xv nadir) vars (xv q0) (d0 :: ds) s c Hs Hn ltac:(discriminate) Hp) as (_ & _ & R);
    [exists d0, ds; auto|exact Hall'|exact R].
Qed.
Print Assumptions C101_small_objectives_refuted.

(** Such sessions exist: two solutions, first the one and then the other corner asked for. *)
Definition wF : list (list R) := [[0; / 1000000000]; [/ 1000000000; 0]].
Definition wid : list R := [0; 0].
Definition wnd : list R := [/ 1000000000; / 1000000000].
Definition wans (a b : R) : nv_dict XR :=
  MkND (Some (xv [a; b])) (Some (VInt 3)) (Some (VBool false)) (Some [None; None]) (Some (VBool false)).
Lemma wF_setup : setup (N:=XR) 2 (xm wF) (xv wid) (xv wnd) None.
Proof. split; [|split; [|split]]; try reflexivity; try exact I. apply xm_is_matrix. repeat constructor. Qed.
Lemma wF_proper q : length q = 2%nat -> proper_asf (N:=XR) pm_asf (xm wF) (xv wid) (xv wnd) (xv q).
Proof. intros H. apply (pm_asf_proper 2); auto. - repeat constructor. - repeat constructor; lra. Qed.
Lemma wF_enclosed : enclosed (N:=XR) (xm wF) (xv wid) (xv wnd).
Proof.
  split; [|split; apply xv_nan_free]. apply Forall_forall. intros r Hr. apply in_map_iff in Hr. destruct Hr as (f & <- & Hf).
  split; apply xvle_iff; simpl in Hf; destruct Hf as [<-|[<-|[]]]; repeat constructor; lra.
Qed.
Lemma wF_mnd : @mutually_nondominated XR (xm wF).
Proof.
  intros a b Ha Hb [H1 H2].
  apply in_map_iff in Ha. destruct Ha as (ra & <- & Ha). apply in_map_iff in Hb. destruct Hb as (rb & <- & Hb).
  apply xvle_iff in H1. apply H2. apply xvle_iff. clear H2.
  simpl in Ha, Hb. destruct Ha as [<-|[<-|[]]], Hb as [<-|[<-|[]]];
    inversion H1 as [|? ? ? ? A B]; subst; inversion B; subst; try (apply rvle_refl); lra.
Qed.
Lemma wans_valid c a b : nc_ideal c = xv wid -> nc_nadir c = xv wnd -> 0 <= a <= / 1000000000 -> 0 <= b <= / 1000000000 ->
  nv_validate c (wans a b) = Ok tt.
Proof.
  intros E1 E2 Ha Hb. unfold nv_validate, wans. cbn [nd_ref nd_speed nd_prev nd_bounds nd_stop]. rewrite E1, E2.
  rewrite (bany_false_xr nltb (xv [a; b]) (xv wid)) by (auto; repeat constructor; apply xltb_fin_false; lra).
  rewrite (bany_false_xr (fun x y => nltb y x) (xv [a; b]) (xv wnd)) by (auto; repeat constructor; apply xltb_fin_false; lra).
  reflexivity.
Qed.
Lemma close_refl (q : list R) : Forall2 close (xv q) (xv q).
Proof.
  induction q as [|x q IH]; cbn [xv map]; constructor; [|exact IH]. cbn [close]. replace (x - x) with 0 by ring. rewrite Rabs_R0.
  pose proof (Rabs_pos x). lra.
Qed.
Example C101_hypotheses_met : exists s c,
  nv_session pm_asf (xm wF) (xv wid) (xv wnd) None [wans 0 (/ 1000000000); wans (/ 1000000000) 0] s c.
Proof.
  destruct (C18_constant_preference_never_fails 2 pm_asf wF (xv wid) wnd None [0; / 1000000000] (wans 0 (/ 1000000000)) 1) as (s & c & H).
  - apply wF_setup. - discriminate. - apply wF_proper. reflexivity. - split; reflexivity. - reflexivity.
  - intros c Hc. injection Hc as <-. apply wans_valid; try reflexivity; lra.
  - cbn [repeat] in H.
    destruct (C28_two_objectives pm_asf wF (xv wid) wnd None _ s c wF_setup wF_enclosed wF_mnd H) as [_ Hp].
    { constructor; [|constructor]. split; [split; reflexivity|]. split; [reflexivity|]. eexists. split; [reflexivity|]. apply wF_proper. reflexivity. }
    destruct (session_reach XR_ord _ _ _ _ _ _ _ _ _ wF_setup H) as (Hq & qs & Hr & Hin).
    pose proof (ginv_reach XR_ord _ _ _ _ _ _ _ _ wF_setup Hr) as G.
    destruct (ns_proj s) as [p|] eqn:Ep; [|discriminate].
    assert (Hc : nc_idx c = ns_idx s /\ nc_ideal c = xv wid /\ nc_nadir c = xv wnd).
    { unfold nv_request_of in Hq. injection Hq as <-. cbn [nc_idx nc_ideal nc_nadir]. split; [reflexivity|]. split; apply G. }
    destruct Hc as (Hc1 & Hc2 & Hc3). rewrite Hc1 in Hp.
    pose proof (wf_idx _ _ (g_wf _ _ _ _ _ _ _ G)) as Hw. rewrite Forall_forall in Hw. specialize (Hw p Hp). rewrite (g_front _ _ _ _ _ _ _ G) in Hw.
    destruct (forward_succeeds XR_ord 2 pm_asf (xm wF) (xv wid) (xv wnd) None s qs c (wans (/ 1000000000) 0) (xv [/ 1000000000; 0])) as (s' & c' & Hit); auto.
    + apply wF_setup. + apply wans_valid; auto; lra. + split; reflexivity. + apply wF_proper. reflexivity.
    + destruct (nth_error (xm wF) p) as [row|] eqn:E; [|apply nth_error_None in E; lia].
      exists p. split; [exact Hp|]. exists row. split; [exact E|].
      clear - H. inversion H as [|ds s0 c0 d0 s1 c1 H1 H2 H3 E]; subst. change [wans 0 (/ 1000000000)] with ([] ++ [wans 0 (/ 1000000000)]) in E. apply app_inj_tail in E. destruct E as [-> ->].
        destruct (session_step XR_ord _ _ _ _ _ _ _ _ _ _ _ _ wF_setup H1 (conj eq_refl eq_refl : forward (wans 0 (/ 1000000000))) H2 H3) as (_ & ref & sp & ub & _ & _ & E & _ & Hspec).
        cbn [wans nd_bounds] in E. injection E as <-.
        destruct Hspec as (again & pi & proj & nav & rows & lb & ub' & dist & idx & _ & _ & _ & _ & _ & _ & _ & _ & -> & _). cbn [ns_bounds].
        apply (no_bounds_exceeds row 2).
    + intros r0 E. destruct (stuck_session 2 pm_asf (xm wF) (xv wid) (xv wnd) None (xv [0; / 1000000000]) _ s c wF_setup H) as (_ & E' & _); [discriminate|apply wF_proper; reflexivity| | |].
      * eexists _, _. split; reflexivity.
      * constructor; [|constructor]. split; [split; reflexivity|]. eexists. split; [reflexivity|].
        apply close_refl.
      * rewrite E' in E. injection E as <-.
        destruct (allclose_close (xv [/ 1000000000; 0]) (xv [0; / 1000000000]) eq_refl) as (r & Er & _). exists r. exact Er.
    + exists s', c'. change [wans 0 (/ 1000000000); wans (/ 1000000000) 0] with ([wans 0 (/ 1000000000)] ++ [wans (/ 1000000000) 0]).
      eapply nvs_step; [exact H| |exact Hit]. apply wans_valid; auto; lra.
Qed.

(** With IEEE doubles and the documented achievement function: the second answer asks for
    the other solution, which is reachable and better for it, and the navigation still goes
    to the first one. *)
Definition tF : list (list F64) := [[0; 0x1p-30]; [0x1p-31; 0x1p-31]; [0x1p-30; 0]]%float.
Definition tid : list F64 := [0; 0]%float.
Definition tnd : list F64 := [0x1p-30; 0x1p-30]%float.
Definition tans1 := fans 0 0x1p-30 1 false none2.
Definition tans2 := fans 0x1p-31 0x1p-31 1 false none2.
Definition chk_stuck (r : option (nv_state F64 * list (nv_request F64))) : bool :=
  match r with
  | Some (s', NReq c' :: _) => match ns_proj s' with Some p => Nat.eqb p 0 | None => false end && existsb (Nat.eqb 1) (idx_list (nc_idx c'))
  | _ => false
  end.
Definition trun := play pm_asf (init_st tF tid tnd None) [(0, tans1)]%nat.
Lemma trun_ok : match trun with Some st => chk_stuck (play1 pm_asf st 0 tans2) | None => false end = true.
Proof. vm_compute. reflexivity. Qed.
Lemma chk_stuck_inv asf front ideal nadir vars st script d :
  st = init_st front ideal nadir vars ->
  match play asf st script with Some st => chk_stuck (play1 asf st 0 d) | None => false end = true ->
  exists s qs c s' c',
    nv_reach (N:=F64) asf front ideal nadir vars s qs /\ In (NReq c) qs /\ nv_validate c d = Ok tt /\
    nv_iterate asf (NReq c) (Some d) s = (s', Ok (NReq c')) /\ ns_proj s' = Some 0%nat /\ In 1%nat (idx_list (nc_idx c')).
Proof.
  intros Hst H. pose proof (init_reach asf _ _ _ _ _ Hst) as Hr. clear Hst. destruct st as [s0 qs0]. cbn [fst snd] in Hr.
  destruct (play asf (s0, qs0) script) as [[s qs]|] eqn:E1; [|discriminate H].
  pose proof (play_reach _ _ _ _ _ _ _ _ _ _ Hr E1) as Hr1.
  destruct (play1 asf (s, qs) 0 d) as [[s' [|q qs']]|] eqn:E; try discriminate H.
  unfold chk_stuck in H. destruct q as [c'|]; [|discriminate H].
  destruct (play1_reach _ _ _ _ _ _ _ _ _ _ _ _ Hr1 E) as (c & Hn & Hv & Hi & Hr').
  destruct (ns_proj s') as [p|] eqn:Es; [|discriminate H]. apply andb_true_iff in H. destruct H as [H1 H2].
  apply Nat.eqb_eq in H1. subst p. apply existsb_exists in H2. destruct H2 as (j & Hj & Hj'). apply Nat.eqb_eq in Hj'. subst j.
  exists s, qs, c, s', c'. split; [exact Hr1|]. split; [eapply nth_error_In; exact Hn|]. auto.
Qed.
Theorem C101_redirects_refuted :
  exists s qs c s' c',
    nv_reach (N:=F64) pm_asf tF tid tnd None s qs /\ In (NReq c) qs /\ nv_validate c tans2 = Ok tt /\
    nv_iterate pm_asf (NReq c) (Some tans2) s = (s', Ok (NReq c')) /\
    ns_proj s' = Some 0%nat /\ In 1%nat (idx_list (nc_idx c')) /\
    nltb (pm_asf tnd tid [0x1p-31; 0x1p-31]%float [0x1p-31; 0x1p-31]%float) (pm_asf tnd tid [0; 0x1p-30]%float [0x1p-31; 0x1p-31]%float : F64) = true.
Proof.
  destruct (chk_stuck_inv pm_asf tF tid tnd None _ [(0, tans1)]%nat tans2 eq_refl trun_ok) as (s & qs & c & s' & c' & A & B & C & D & E & G).
  exists s, qs, c, s', c'. repeat (split; [assumption|]). vm_compute. reflexivity.
Qed.
Print Assumptions C101_redirects_refuted.
