(** * Property theorems on IEEE doubles: NAUTILUS Navigator.
    Vocabulary in SFloat.v; see also PropsDoubles.v. *)
From Coq Require Import ZArith List Bool Lia Reals Lra Floats.
From Flocq Require Import Core.
From Verif Require Import Num NumXR NumF64 Py Np Spec NpFacts MNavigator SNavigator PENautilus PNavigator PNavigator2 PNavigator3 PNavigator4 PNavigator5 PNavigator6 PNavigator8 F64Sums F64Step SFloat F64Vec F64Walk PNavigator9.
Import ListNotations.
Local Open Scope R_scope.

(** ** C17: the navigation point.  Any history; data of absolute value at most
    2^e with -1000 <= e <= 1018. *)
Theorem C17_navigation_point_doubles :
  forall k (asf : @asf_fn F64) (F : list (list F64)) ideal nd vars s qs c d s' c' e,
  (-1000 <= e <= 1018)%Z -> Forall (fin_below e) F -> fin_below e nd ->
  setup k F ideal nd vars -> nv_reach asf F ideal nd vars s qs -> In (NReq c) qs ->
  nv_validate c d = Ok tt -> forward d -> nv_iterate asf (NReq c) (Some d) s = (s', Ok (NReq c')) ->
  exists i p, ns_proj s' = Some i /\ nth_error F i = Some p /\
    rounded_step (ns_left s) (ns_nav s) p (nc_nav c') /\
    fin_below (e + 1) (nc_nav c') /\
    (ns_left s = 1%Z -> same_numbers (nc_nav c') p).
Proof.
  intros k asf F ideal nd vars s qs c d s' c' e He BF Bn Hs Hr Hin Hv Hf Hi.
  destruct (reach_forward F64_ord _ _ _ _ _ _ _ _ _ _ _ _ Hs Hr Hin Hv Hf Hi) as (G & Hq & ref & speed & ub & _ & _ & _ & _ & Hsp).
  pose proof (g_wf _ _ _ _ _ _ _ G) as W. pose proof (wf_nadir _ _ W) as Wn.
  destruct (forward_f k asf s ref speed _ s' _ W Wn Hsp) as (pi & p & Hpj & Hp & Lp & Ln & En & _ & _ & Hc & _).
  rewrite (g_front _ _ _ _ _ _ _ G) in Hp. assert (Hpi : In p F) by (eapply nth_error_In; eauto).
  assert (Bp : fin_below e p) by (rewrite Forall_forall in BF; auto).
  assert (Bs := nav_below k asf F ideal nd vars e s qs ltac:(lia) BF Bn Hs Hr).
  assert (Hr' : nv_reach asf F ideal nd vars s' (NReq c' :: qs)) by (apply (nv_reach_step _ _ _ _ _ _ _ _ _ _ _ Hr Hin Hv Hi)).
  assert (Bs' := nav_below k asf F ideal nd vars e s' _ ltac:(lia) BF Bn Hs Hr').
  unfold nv_request_of in Hq. injection Hq as <-. cbn [nc_nav]. exists pi, p. split; [auto|]. split; [auto|]. split; [|split; [auto|]].
  - rewrite En. apply step_rounded; [lia|len|apply (within_le (e + 1)); [lia|auto]|apply (within_le e); [lia|auto]].
  - intros E1. rewrite En, E1. apply same_of_val; [apply (within_fin _ _ Bp)|]. apply step_last_same; [len|apply (within_fin _ _ Bs)|apply (within_fin _ _ Bp)].
Qed.
Print Assumptions C17_navigation_point_doubles.

(** ** C18: constant preference.  After [t] answers the navigation point is, up
    to t * 2^-49 * 2^e in each component, t/100 of the way from the nadir to the
    projection; after 100 answers it has the numbers of the projection.  The
    distance shown approximates the exact percentage for the point shown (relative
    error (2k+10)*2^-52; no underflow: differences to the nadir zero or at least
    2^-500), and is exactly 100 at the end. *)
Theorem C18_constant_preference_doubles :
  forall k (asf : @asf_fn F64) (F : list (list F64)) ideal nd vars (q : list F64) ds s c e,
  (-1000 <= e <= 1018)%Z -> Forall (fin_below e) F -> fin_below e nd ->
  setup k F ideal nd vars -> Forall ffin q -> proper_asf asf F ideal nd q ->
  nv_session asf F ideal nd vars ds s c ->
  Forall (fun d => forward d /\ nd_ref d = Some q) ds -> ds <> [] ->
  exists i p, best_projection asf F ideal nd q (IList (seq 0 (length F))) (map (fun _ => nnan) ideal) i /\
    nth_error F i = Some p /\
    let t := IZR (Z.min (Z.of_nat (length ds)) 100) in
    (length (nc_nav c) = k /\ forall j a b x, nth_error nd j = Some a -> nth_error p j = Some b -> nth_error (nc_nav c) j = Some x ->
       ffin x /\ Rabs (fval x - ((1 - t / 100) * fval a + t / 100 * fval b)) <= t * bpow radix2 (-49) * bpow radix2 e) /\
    (100 <= length ds -> same_numbers (nc_nav c) p)%nat /\
    ((e <= 499)%Z -> (Z.of_nat k <= 2 ^ 20)%Z ->
       (apart (-500) (nc_nav c) nd -> apart (-500) p nd -> map fval p <> map fval nd ->
          approximates (IZR (2 * Z.of_nat k + 10) * bpow radix2 (-52)) (nc_dist c)
            (100 * rdist (map fval (nc_nav c)) (map fval nd) / rdist (map fval p) (map fval nd))) /\
       ((100 <= length ds)%nat -> ~ close_to (-536) p nd -> PrimFloat.eqb (nc_dist c) 100 = true)).
Proof.
  intros k asf F ideal nd vars q ds s c e He BF Bn Hs Hq Hp Hn Hd Hne.
  destruct (constant_doubles k asf F ideal nd vars q e ds s c ltac:(lia) Hs BF Bn Hq Hn Hd Hne) as (i & p & H1 & H2 & H3 & _ & _ & _ & H4 & H5 & H6).
  destruct (session_reach F64_ord _ _ _ _ _ _ _ _ _ Hs Hn) as (Hqq & _).
  pose proof (projection_best F64_ord k asf _ _ _ (wf_init _ _ _ _ _ Hs) Hp H1) as Hb.
  exists i, p. split; [exact Hb|]. split; auto. cbn zeta. unfold nv_request_of in Hqq. injection Hqq as <-. cbn [nc_nav nc_dist].
  assert (Hnd : length nd = k) by (destruct Hs as (_ & _ & Hx & _); exact Hx).
  assert (Bp : fin_below e p) by (rewrite Forall_forall in BF; apply BF; eapply nth_error_In; eauto).
  replace (Z.min (Z.of_nat (length ds)) 100) with (Z.of_nat (cap (length ds))) by (unfold cap; lia).
  assert (Ht : (0 <= Z.of_nat (cap (length ds)) <= 100)%Z) by (unfold cap; lia).
  assert (By := walkv_below 100 _ e nd p _ Ht ltac:(lia) Bn Bp H4).
  assert (Ln : length (ns_nav s) = k) by (destruct H4 as (L & _); len).
  split; [|split].
  - split; [len|]. destruct H4 as (_ & _ & H4). intros j a b x Ha Hb' Hx. exact (H4 j a b x Ha Hb' Hx).
  - intros Hl. apply same_of_val; [apply (within_fin _ _ Bp)|]. auto.
  - intros He5 Hk. assert (By5 := within_le (e + 1) 500 _ ltac:(lia) By). assert (Bp5 := within_le e 500 _ ltac:(lia) Bp). assert (Bn5 := within_le e 500 _ ltac:(lia) Bn).
    rewrite H5. split.
    + intros Ay Az Ne. apply fpct_close; auto.
    + intros Hl Nc. change 100%float with (f64_ofZ 100). apply (fpct_100 _ p nd k); auto.
      assert (S := H6 Hl). clear -S. induction S as [|a b l m [_ E] S IH]; constructor; auto.
Qed.
Print Assumptions C18_constant_preference_doubles.

(** The hypotheses are met by sessions of any length on doubles, with the
    scalarizing function of the point method. *)
Local Open Scope float_scope.
Definition gF : list (list F64) := [[0; 2.1]; [1.1; 1.1]; [2.1; 0.3]].
Definition gnd : list F64 := [2.1; 2.1].
Definition gid : list F64 := [0; 0.3].
Definition gq : list F64 := [1.1; 1.3].
Definition gV : option (list (list F64)) := Some [[10]; [11]; [12]].
Definition gdict : nv_dict F64 := MkND (Some gq) (Some (VInt 3)) (Some (VBool false)) (Some [None; None]) (Some (VBool false)).
Definition gfinb (v : list F64) : bool :=
  forallb (fun x => PrimFloat.is_finite x && PrimFloat.leb 0 x && PrimFloat.leb x (f64_ofZ 1024)) v.
Lemma gfinb_ok e v : (10 <= e)%Z -> gfinb v = true -> fin_below e v.
Proof.
  intros He H. unfold gfinb in H. rewrite forallb_forall in H. apply Forall_forall. intros x Hx. apply H in Hx.
  apply andb_true_iff in Hx. destruct Hx as [Hx H3]. apply andb_true_iff in Hx. destruct Hx as [H1 H2].
  destruct (f64_ofZ_exact 1024) as [G E]; [lia|]. split; auto.
  rewrite f64_leb_val in H2; [|exact ffin_0|exact H1]. rewrite f64_leb_val in H3; [|exact H1|exact G].
  assert (T : forall a b, Rle_bool a b = true -> (a <= b)%R) by (intros a b Hab; destruct (Rle_bool_spec a b); [auto|discriminate]).
  apply T in H2. apply T in H3. rewrite fval_0 in H2. rewrite E in H3.
  rewrite Rabs_pos_eq by exact H2. eapply Rle_trans; [exact H3|]. change 1024%R with (bpow radix2 10). apply bpow_le. exact He.
Qed.
Lemma g_setup : setup 2 gF gid gnd gV.
Proof. split; [repeat constructor|]. repeat split; reflexivity. Qed.
Lemma g_proper : proper_asf pm_asf gF gid gnd gq.
Proof.
  assert (A : forallb (fun row => @nisnan F64 (pm_asf gnd gid (map (fun _ => nnan) row) gq)) gF = true) by (vm_compute; reflexivity).
  assert (B : forallb (fun row => negb (@nisnan F64 (pm_asf gnd gid row gq))) gF = true) by (vm_compute; reflexivity).
  rewrite forallb_forall in A, B. split; intros row H; [apply A; auto|]. apply B in H. destruct (nisnan (pm_asf gnd gid row gq)); [discriminate|reflexivity].
Qed.
Example C18_doubles_hypotheses_met : forall t, exists s c qs s' c',
  Forall (fin_below 499) gF /\ fin_below 499 gnd /\ setup 2 gF gid gnd gV /\ Forall ffin gq /\ proper_asf pm_asf gF gid gnd gq /\
  nv_session pm_asf gF gid gnd gV (repeat gdict t) s c /\ Forall (fun d => forward d /\ nd_ref d = Some gq) (repeat gdict t) /\
  nv_reach pm_asf gF gid gnd gV s qs /\ In (NReq c) qs /\ nv_validate c gdict = Ok tt /\
  nv_iterate pm_asf (NReq c) (Some gdict) s = (s', Ok (NReq c')).
Proof.
  intros t.
  assert (Q : Forall ffin gq) by (apply (within_fin 10), gfinb_ok; [lia|vm_compute; reflexivity]).
  destruct (repeat_session F64_ord 2 pm_asf gF gid gnd gV gdict gq (S t)) as (s' & c' & H & _).
  - apply g_setup.
  - discriminate.
  - split; reflexivity.
  - reflexivity.
  - intros c Hc. injection Hc as <-. vm_compute. reflexivity.
  - apply g_proper.
  - apply allclose_refl_f. exact Q.
  - replace (repeat gdict (S t)) with (repeat gdict t ++ [gdict]) in H by (symmetry; apply repeat_cons).
    inversion H as [|ds s c d s1 c1 H1 H2 H3 E]; subst.
    + match goal with E : [] = _ |- _ => destruct (repeat gdict t); discriminate E end.
    + apply app_inj_tail in E. destruct E as [-> ->].
      destruct (session_reach F64_ord _ _ _ _ _ _ _ _ _ g_setup H1) as (_ & qs & H4 & H5).
      exists s, c, qs, s', c'. split.
      { assert (A : forallb gfinb gF = true) by (vm_compute; reflexivity). rewrite forallb_forall in A. apply Forall_forall. intros r Hr. apply gfinb_ok; [lia|auto]. }
      split; [apply gfinb_ok; [lia|vm_compute; reflexivity]|]. split; [apply g_setup|]. split; [exact Q|]. split; [apply g_proper|]. split; [exact H1|].
      split; [apply Forall_forall; intros d Hd; apply repeat_spec in Hd; subst d; repeat split; reflexivity|]. auto.
Qed.
