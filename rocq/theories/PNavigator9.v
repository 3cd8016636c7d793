(** * NAUTILUS Navigator with IEEE doubles: rounding. *)
From Coq Require Import ZArith List Bool Lia Reals Lra Floats.
From Flocq Require Import Core.
From Verif Require Import Num NumF64 Py Np Spec NpFacts MNavigator SNavigator PENautilus PNavigator PNavigator2 PNavigator3 PNavigator4 PNavigator5 PNavigator8 F64Sums F64Step SFloat F64Vec F64Walk.
Import ListNotations.
Local Open Scope R_scope.

Ltac len := first [eassumption | symmetry; eassumption | etransitivity; [eassumption|]; first [eassumption | symmetry; eassumption] | etransitivity; [symmetry; eassumption|]; eassumption].
Implicit Types (asf : @asf_fn F64) (s : nv_state F64) (F : list (list F64)) (nd : list F64).

Lemma nav_point_f (proj nav v : list F64) r : length nav = length proj -> nv_nav_point proj nav r = Ok v -> v = zipw (fstep r) nav proj.
Proof. intros L H. unfold nv_nav_point in H. destruct (r =? 0)%Z; [discriminate|]. apply step_vec; auto. Qed.
Lemma distance_f (nav proj nd : list F64) d : length nav = length nd -> length proj = length nd -> nv_distance nav proj nd = Ok d -> d = fpct nav proj nd.
Proof. intros L1 L2 H. unfold nv_distance in H. rewrite !bcast2_eq in H by auto. cbn [rbind] in H. injection H as <-. reflexivity. Qed.

(** One forward answer. *)
Lemma forward_f k asf s ref speed bounds s' q : wf k s -> length (ns_nadir s) = k ->
  forward_spec asf s ref speed bounds s' q ->
  exists pi p, ns_proj s' = Some pi /\ nth_error (ns_front s) pi = Some p /\ length p = k /\ length (ns_nav s) = k /\
    ns_nav s' = zipw (fstep (ns_left s)) (ns_nav s) p /\ ns_dist s' = fpct (ns_nav s') p (ns_nadir s) /\
    ns_step s' = (if (ns_left s =? 1)%Z then ns_step s else ns_step s + 1)%Z /\ (1 <= ns_left s <= 100)%Z /\ (ns_step s = 101 - ns_left s)%Z.
Proof.
  intros W Hn (again & pi & proj & nav & rows & lb & ub & dist & idx & Hr & Hp & Hpr & Hnav & Hrows & Hbs & Hd & Hi & -> & _).
  pose proof (wf_front _ _ W) as Hm. assert (Lp : length proj = k) by (unfold is_matrix in Hm; rewrite Forall_forall in Hm; apply Hm; eapply nth_error_In; eauto).
  pose proof (wf_nav _ _ W) as Hl. pose proof (wf_count _ _ W) as Hc.
  apply nav_point_f in Hnav; [|len]. assert (Ln : length nav = k) by (subst nav; rewrite zipw_len by len; len).
  apply distance_f in Hd; [|len|len]. exists pi, proj. cbn [ns_proj ns_nav ns_dist ns_step]. repeat (split; [auto; fail|]). lia.
Qed.

(** The navigation point stays within twice the data. *)
Lemma nav_grown k asf F ideal nd vars e s qs : (-1000 <= e <= 1019)%Z -> Forall (fin_below e) F -> fin_below e nd ->
  setup k F ideal nd vars -> nv_reach asf F ideal nd vars s qs ->
  grown (ns_step s - 1) e (ns_nav s) /\ (forall c, In (NReq c) qs -> grown (nc_step c - 1) e (nc_nav c)).
Proof.
  intros He BF Bn Hs. induction 1 as [|s qs c d s' out Hr IH Hin Hv Hit].
  - assert (G : grown 0 e nd) by (apply grown_0; [lia|auto]). split; [exact G|]. intros c [E|[]]. injection E as <-. exact G.
  - pose proof (reach_outcome F64_ord _ _ _ _ _ _ _ _ _ _ _ _ Hs Hr Hin Hv Hit) as Ho.
    pose proof (ginv_reach F64_ord _ _ _ _ _ _ _ _ Hs Hr) as G. destruct IH as [IH1 IH2].
    destruct Ho as [rows decs _ -> _ _ ->|ub _ _ _ _ -> ->|ref speed ub _ _ _ _ _ Hl Hf ->|ref speed ub _ _ _ _ _ _ _ -> ->].
    + split; auto. intros c' [E|Hc']; [discriminate|auto].
    + cbn. split; auto. intros c' [E|Hc']; auto. injection E as <-. cbn. auto.
    + pose proof (g_wf _ _ _ _ _ _ _ G) as W. pose proof (wf_nadir _ _ W) as Wn.
      destruct (forward_f k asf s ref speed _ s' _ W Wn Hf) as (pi & p & _ & Hp & Lp & Ln & En & _ & Es & Hc & Hst).
      assert (Bp : fin_below e p). { rewrite (g_front _ _ _ _ _ _ _ G) in Hp. rewrite Forall_forall in BF. apply BF. eapply nth_error_In; eauto. }
      assert (Hg : (0 <= ns_step s - 1 <= 2 ^ 49)%Z) by lia.
      assert (X : grown (ns_step s' - 1) e (ns_nav s')).
      { rewrite En, Es. destruct (Z.eqb_spec (ns_left s) 1) as [E1|E1].
        - rewrite E1. apply grown_0; [lia|]. assert (S := step_last_same (ns_nav s) p ltac:(len)).
          specialize (S (within_fin _ _ (grown_below _ _ _ Hg IH1)) (within_fin _ _ Bp)). clear -S Bp. unfold fin_below in *.
          induction S as [|x y l m [Fx E] S IH]; constructor; [|apply IH; apply (Forall_inv_tail Bp)].
          split; auto. rewrite E. apply (Forall_inv Bp).
        - replace (ns_step s + 1 - 1)%Z with (ns_step s - 1 + 1)%Z by lia. apply grown_next; auto; try lia; len. }
      split; auto. intros c' [E|Hc']; auto. injection E as <-. cbn. auto.
    + destruct (ns_step s =? 1)%Z; split; eauto.
Qed.
Lemma nav_below k asf F ideal nd vars e s qs : (-1000 <= e <= 1019)%Z -> Forall (fin_below e) F -> fin_below e nd ->
  setup k F ideal nd vars -> nv_reach asf F ideal nd vars s qs -> fin_below (e + 1) (ns_nav s).
Proof.
  intros He BF Bn Hs Hr. destruct (nav_grown k asf F ideal nd vars e s qs He BF Bn Hs Hr) as [G _].
  pose proof (ginv_reach F64_ord _ _ _ _ _ _ _ _ Hs Hr) as Gi. pose proof (wf_count _ _ (g_wf _ _ _ _ _ _ _ Gi)).
  eapply grown_below; [|exact G]. lia.
Qed.

(** Constant preference. *)
Lemma isclose_refl_f (x : F64) : ffin x -> @isclose F64 x x = true.
Proof.
  intros Fx. assert (E : nsub x x = 0%float \/ True) by auto. clear E.
  assert (F0 : ffin (PrimFloat.sub x x) /\ fval (PrimFloat.sub x x) = 0).
  { rewrite <- fval_0. apply f64_sub_exact; auto. rewrite fval_0. ring. }
  destruct F0 as [F0 E0].
  assert (Hf : nfinite x = true). { unfold nfinite. change (nsub x x) with (PrimFloat.sub x x). rewrite ffin_notnan; auto. }
  unfold isclose. rewrite Hf. cbn [andb].
  change (nsub x x) with (PrimFloat.sub x x).
  change (@nabs F64 (PrimFloat.sub x x)) with (PrimFloat.abs (PrimFloat.sub x x)).
  destruct (fabs_val (PrimFloat.sub x x) F0) as [Fa Ea]. rewrite E0, Rabs_R0 in Ea.
  destruct (fabs_val x Fx) as [Fx' Ex'].
  set (at8 := @ndiv F64 (nofZ 1) (nofZ 100000000)). set (rt := @ndiv F64 (nofZ 1) (nofZ 100000)).
  assert (U : bpow radix2 (-53) <= 1) by (change 1 with (bpow radix2 0); apply bpow_le; lia).
  assert (A1 : ffin at8 /\ 0 <= fval at8 <= 1).
  { destruct (f64_coef 1 100000000) as (d & Hd & Fd & Ed); [lia|lia|]. split; [exact Fd|]. unfold at8. change (@ndiv F64 (nofZ 1) (nofZ 100000000)) with (PrimFloat.div (f64_ofZ 1) (f64_ofZ 100000000)).
    rewrite Ed. apply Rabs_le_inv in Hd. lra. }
  assert (A2 : ffin rt /\ 0 <= fval rt <= / 4).
  { destruct (f64_coef 1 100000) as (d & Hd & Fd & Ed); [lia|lia|]. split; [exact Fd|]. unfold rt. change (@ndiv F64 (nofZ 1) (nofZ 100000)) with (PrimFloat.div (f64_ofZ 1) (f64_ofZ 100000)).
    rewrite Ed. apply Rabs_le_inv in Hd. lra. }
  destruct A1 as [G1 B1], A2 as [G2 B2]. change (@nabs F64 x) with (PrimFloat.abs x). set (ax := PrimFloat.abs x) in *.
  assert (Px : 0 <= fval ax <= bpow radix2 1024).
  { rewrite Ex'. split; [apply Rabs_pos|]. assert (S := fval_small x). destruct (Rlt_bool_spec (Rabs (fval x)) (bpow radix2 FloatOps.emax)) as [H|H]; [|discriminate]. left. exact H. }
  assert (K : bpow radix2 1022 = / 4 * bpow radix2 1024) by (change 1022%Z with (-2 + 1024)%Z; rewrite bpow_plus; f_equal).
  assert (K1 : bpow radix2 1023 = 2 * bpow radix2 1022) by (change 1023%Z with (1 + 1022)%Z; rewrite bpow_plus; f_equal).
  assert (K2 : 1 <= bpow radix2 1022) by (change 1 with (bpow radix2 0); apply bpow_le; lia).
  assert (M : Rabs (fval rt * fval ax) <= bpow radix2 1022) by (rewrite Rabs_pos_eq by (apply Rmult_le_pos; lra); rewrite K; apply Rmult_le_compat; lra).
  destruct (f64_mul_err rt ax G2 Fx') as [G3 E3]; [lra|].
  assert (M3 : 0 <= fval (PrimFloat.mul rt ax) <= bpow radix2 1022).
  { assert (P : 0 <= fval (PrimFloat.mul rt ax)) by (rewrite E3; apply rnd_nonneg; apply Rmult_le_pos; lra). split; auto.
    rewrite <- (Rabs_pos_eq _ P), E3. apply rnd_le_bpow; [lia|auto]. }
  destruct (f64_add_err at8 (PrimFloat.mul rt ax) G1 G3) as [G4 E4]; [rewrite Rabs_pos_eq; lra|].
  change (@nmul F64 rt ax) with (PrimFloat.mul rt ax). change (@nadd F64 at8 (PrimFloat.mul rt ax)) with (PrimFloat.add at8 (PrimFloat.mul rt ax)).
  change (@nleb F64) with PrimFloat.leb. rewrite f64_leb_val; auto. apply Rle_bool_true. rewrite Ea, E4. apply rnd_nonneg. lra.
Qed.
Lemma allclose_refl_f (q : list F64) : Forall ffin q -> allclose q q = Ok true.
Proof.
  intros H. unfold allclose. rewrite bcast2_eq by auto. cbn [rmap]. f_equal. induction H as [|x q Hx H IH]; auto.
  cbn [zipw forallb]. rewrite isclose_refl_f by exact Hx. exact IH.
Qed.

Lemma walked_end e (a b v : list F64) : length a = length b -> Forall2 (fun x y : F64 => ffin x /\ fval x = fval y) v b -> walked_vec 100 100 e a b v.
Proof.
  intros L H. assert (Lv := Forall2_len _ _ _ H). split; [len|]. split; [len|]. intros j x y z Hx Hy Hz.
  destruct (Forall2_nth_l _ _ _ _ _ H Hz) as (y' & Hy' & Fz & Ez). pose proof (eq_trans (eq_sym Hy) Hy') as E. injection E as <-.
  split; auto. rewrite Ez. replace (IZR 100 / IZR 100) with 1 by (field). replace (fval y - _) with 0 by ring. rewrite Rabs_R0.
  pose proof (bpow_ge_0 radix2 (-49)). pose proof (bpow_ge_0 radix2 e). assert (0 <= bpow radix2 (-49) * bpow radix2 e) by (apply Rmult_le_pos; auto). lra.
Qed.
Lemma constant_doubles k asf F ideal nd vars (q : list F64) e ds s c : (-1000 <= e <= 1019)%Z ->
  setup k F ideal nd vars -> Forall (fin_below e) F -> fin_below e nd -> Forall ffin q ->
  nv_session asf F ideal nd vars ds s c ->
  Forall (fun d => forward d /\ nd_ref d = Some q) ds -> ds <> [] ->
  exists pi p, projection asf (nv_init F ideal nd vars) q pi /\ nth_error F pi = Some p /\ length p = k /\
    ns_proj s = Some pi /\ ns_ref s = Some q /\
    (ns_step s = 1 + Z.of_nat (Nat.min (length ds) 99))%Z /\
    walked_vec 100 (Z.of_nat (cap (length ds))) e nd p (ns_nav s) /\
    ns_dist s = fpct (ns_nav s) p nd /\
    ((100 <= length ds)%nat -> Forall2 (fun x y => ffin x /\ fval x = fval y) (ns_nav s) p).
Proof.
  intros He Hs BF Bn Hq H. induction H as [c Hc|ds s c d s' c' H IH Hv Hit]; intros Hall Hne; [congruence|].
  apply Forall_app in Hall. destruct Hall as [Hall Hd]. inversion Hd as [|? ? [Hfwd Href] _]; subst. clear Hd.
  destruct (session_step F64_ord _ _ _ _ _ _ _ _ _ _ _ _ Hs H Hfwd Hv Hit) as (G & ref & speed & ub & Eref & _ & _ & Hl & Hspec).
  assert (ref = q) by congruence. subst ref. clear Eref.
  pose proof (g_wf _ _ _ _ _ _ _ G) as W. pose proof (wf_count _ _ W) as Hcnt.
  assert (Hnd : length nd = k) by (destruct Hs as (_ & _ & Hx & _); exact Hx).
  assert (Hprev : exists t, t = length ds /\ (ns_step s = 1 + Z.of_nat (Nat.min t 99))%Z /\
    ((t = 0%nat /\ s = nv_init F ideal nd vars) \/
     (t <> 0%nat /\ ns_ref s = Some q /\ exists pi p, projection asf (nv_init F ideal nd vars) q pi /\ nth_error F pi = Some p /\
        length p = k /\ ns_proj s = Some pi /\ walked_vec 100 (Z.of_nat (cap t)) e nd p (ns_nav s)))).
  { destruct ds as [|d0 ds0].
    - inversion H; subst.
      + exists 0%nat. repeat split; auto.
      + destruct ds; discriminate.
    - destruct (IH Hall) as (pi & p & A & B & C & D & E & E1 & E2 & _); [discriminate|].
      exists (length (d0 :: ds0)). split; [reflexivity|]. split; [exact E1|]. right. split; [discriminate|]. split; auto.
      exists pi, p. auto 10. }
  clear IH. destruct Hprev as (t & Et & Hstep & Hprev).
  assert (Hleft : ns_left s = (100 - Z.of_nat (Nat.min t 99))%Z) by lia.
  rewrite app_length. cbn [length]. rewrite <- Et.
  pose proof (wf_nadir _ _ W) as Wn.
  destruct (forward_f k asf s q speed _ s' _ W Wn Hspec) as (pi & p & Epi & Hp & Lp & Ln & En & Ed & Es & _ & _).
  rewrite (g_front _ _ _ _ _ _ _ G) in Hp. rewrite (g_nadir _ _ _ _ _ _ _ G) in Ed.
  assert (Bp : fin_below e p) by (rewrite Forall_forall in BF; apply BF; eapply nth_error_In; eauto).
  assert (Hw : projection asf (nv_init F ideal nd vars) q pi /\ ns_ref s' = Some q /\ walked_vec 100 (Z.of_nat (cap t)) e nd p (ns_nav s)).
  { destruct Hspec as (again & pi' & proj & nav & rows & lb & ub' & dist & idx & Hr & Hp2 & Hpr & Hnav & Hrows & Hbs & Hdist & Hi & -> & _).
    cbn [ns_proj] in Epi. injection Epi as ->. cbn [ns_ref].
    destruct Hprev as [(-> & Hs0)|(Ht & Eref & pi0 & p0 & A & B & C & D & Ew)].
    - assert (again = true). { destruct Hr as [[_ ?]|[Hx _]]; auto; try (subst s; cbn in Hx; congruence). }
      subst again. rewrite Hs0 in Hp2. split; auto. split; auto. subst s. cbn [nv_init ns_nav]. apply walkv_start; auto. len.
    - assert (again = false).
      { destruct Hr as [[Hx _]|(_ & r0 & cl & E1 & E2 & ->)]; [lia|].
        assert (r0 = q) by congruence. subst r0. rewrite allclose_refl_f in E2 by auto. injection E2 as <-. reflexivity. }
      subst again. rewrite Hp2 in D. injection D as ->. assert (p0 = p) by congruence. subst. auto. }
  destruct Hw as (Hpr & Href' & Hw).
  exists pi, p. repeat (split; [auto; fail|]). split.
  { rewrite Es. destruct (Z.eqb_spec (ns_left s) 1); lia. }
  assert (HL : (100 <= t + 1)%nat -> Forall2 (fun x y : F64 => ffin x /\ fval x = fval y) (ns_nav s') p).
  { intros Ht. rewrite En, Hleft. rewrite Nat.min_r by lia. change (100 - Z.of_nat 99)%Z with 1%Z.
    apply step_last_same; [len| |apply (within_fin _ _ Bp)]. eapply within_fin. eapply walkv_below; [| |exact Bn|exact Bp|exact Hw]; unfold cap; lia. }
  split; [|split; [exact Ed|exact HL]].
  unfold cap in *. destruct (le_lt_dec t 99) as [Ht|Ht].
  - rewrite !Nat.min_l in * by lia. replace (Z.of_nat (t + 1)) with (Z.of_nat t + 1)%Z by lia. rewrite En, Hleft. apply walkv_next; auto; lia.
  - rewrite Nat.min_r by lia. apply walked_end; [len|]. apply HL. lia.
Qed.
