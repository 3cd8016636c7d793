(** * NAUTILUS Navigator: sessions, exact arithmetic. *)
From Coq Require Import ZArith List Bool Lia Reals Lra.
From Verif Require Import Num NumXR Py Np Spec NpFacts XRFacts MNavigator SNavigator PENautilus PNavigator PNavigator2 PNavigator3 PNavigator4.
Import ListNotations.

Section Gen.
  Context {N : NumOps} (L : OrdLaws N).
  Lemma outcome_request k asf s c d s' c' : outcome (N:=N) k asf s c d s' (Ok (NReq c')) -> nv_request_of s' = NReq c'.
  Proof. intros H. destruct H; try discriminate; congruence. Qed.
  Lemma session_reach k asf front ideal nadir vars ds s c :
    setup k front ideal nadir vars -> nv_session (N:=N) asf front ideal nadir vars ds s c ->
    nv_request_of s = NReq c /\ exists qs, nv_reach asf front ideal nadir vars s qs /\ In (NReq c) qs.
  Proof.
    intros Hs. induction 1 as [c Hc|ds s c d s' c' H IH Hv Hit].
    - split; auto. eexists. split; [constructor|]. rewrite Hc. left; auto.
    - destruct IH as (Hq & qs & Hr & Hin). split.
      + eapply outcome_request. eapply (reach_outcome L); eauto.
      + exists (NReq c' :: qs). split; [|left; auto]. apply (nv_reach_step _ _ _ _ _ _ _ _ _ _ _ Hr Hin Hv Hit).
  Qed.
  Lemma session_step k asf front ideal nadir vars ds s c d s' c' :
    setup k front ideal nadir vars -> nv_session (N:=N) asf front ideal nadir vars ds s c -> forward d ->
    nv_validate c d = Ok tt -> nv_iterate asf (NReq c) (Some d) s = (s', Ok (NReq c')) ->
    ginv k front ideal nadir vars s [NReq c] /\
    exists ref speed ub, nd_ref d = Some ref /\ nd_speed d = Some speed /\ nd_bounds d = Some ub /\ length (to_floats ub) = k /\
      forward_spec asf s ref speed (to_floats ub) s' (NReq c').
  Proof.
    intros Hs H [F1 F2] Hv Hit. destruct (session_reach _ _ _ _ _ _ _ _ _ Hs H) as (Hq & qs & Hr & Hin).
    split. { pose proof (ginv_reach L _ _ _ _ _ _ _ _ Hs Hr) as []. constructor; auto. intros c0 [E|[]]. injection E as <-. auto. }
    pose proof (reach_outcome L _ _ _ _ _ _ _ _ _ _ _ _ Hs Hr Hin Hv Hit) as Ho.
    destruct Ho; try congruence. exists ref, speed, ub. repeat split; auto.
    assert (E' : NReq c' = nv_request_of s') by congruence. rewrite E'. auto.
  Qed.
End Gen.

Section XRNav.
  Open Scope R_scope.
  Implicit Types (asf : @asf_fn XR) (s : nv_state XR).

  Lemma nv_nav_point_xr p v r : (r <> 0)%Z -> length v = length p ->
    nv_nav_point (N:=XR) (xv p) (xv v) r = Ok (xv (rcomb (IZR (r - 1) / IZR r) v (1 / IZR r) p)).
  Proof.
    intros Hr HL. unfold nv_nav_point. rewrite (proj2 (Z.eqb_neq _ _) Hr).
    rewrite !coef_xr by auto. apply comb_xr. auto.
  Qed.

  Lemma isclose_refl (x : R) : @isclose XR (Fin x) (Fin x) = true.
  Proof.
    unfold isclose, nfinite.
    assert (E : @nsub XR (Fin x) (Fin x) = Fin (x - x)) by reflexivity. rewrite E. rewrite (xisnan_fin (x - x)). cbn [negb andb].
    rewrite !coef_xr by lia.
    change (@nabs XR (Fin (x - x))) with (Fin (Rabs (x - x)) : XR). change (@nabs XR (Fin x)) with (Fin (Rabs x) : XR).
    change (@nmul XR (Fin (1 / 100000)) (Fin (Rabs x))) with (Fin (1 / 100000 * Rabs x) : XR).
    change (@nadd XR (Fin (1 / 100000000)) (Fin (1 / 100000 * Rabs x))) with (Fin (1 / 100000000 + 1 / 100000 * Rabs x) : XR).
    apply xleb_fin. replace (x - x) with 0 by ring. rewrite Rabs_R0. pose proof (Rabs_pos x). lra.
  Qed.
  Lemma allclose_refl (q : list R) : allclose (N:=XR) (xv q) (xv q) = Ok true.
  Proof.
    unfold allclose. rewrite bcast2_eq by auto. cbn [rmap]. f_equal. induction q as [|x q IH]; auto.
    cbn [xv map zipw forallb]. rewrite isclose_refl. auto.
  Qed.

  Lemma fin_rows k (F : list (list R)) i row : @is_matrix XR k (xm F) -> nth_error (xm F) i = Some row ->
    exists p, nth_error F i = Some p /\ row = xv p /\ length p = k.
  Proof.
    intros Hm H. rewrite xm_nth in H. destruct (nth_error F i) as [p|] eqn:E; [|discriminate]. injection H as <-.
    exists p. repeat split; auto. apply xm_is_matrix in Hm. rewrite Forall_forall in Hm. apply Hm. eapply nth_error_In; eauto.
  Qed.

  (** The navigation point of a successful forward answer. *)
  Lemma forward_nav k asf (F : list (list R)) s ref speed bounds s' q v :
    wf k s -> ns_front s = xm F -> ns_nav s = xv v ->
    forward_spec (N:=XR) asf s ref speed bounds s' q ->
    exists pi p, ns_proj s' = Some pi /\ nth_error F pi = Some p /\ length p = k /\
      ns_nav s' = xv (rcomb (IZR (ns_left s - 1) / IZR (ns_left s)) v (1 / IZR (ns_left s)) p).
  Proof.
    intros W Ef En (again & pi & proj & nav & rows & lb & ub & dist & idx & Hr & Hp & Hpr & Hnav & Hrows & Hbs & Hd & Hi & -> & _).
    pose proof (wf_front _ _ W) as Hm. rewrite Ef in Hpr, Hm. destruct (fin_rows _ _ _ _ Hm Hpr) as (p & Hp' & -> & Hlp).
    exists pi, p. split; auto. split; auto. split; auto. cbn.
    pose proof (wf_count _ _ W). pose proof (wf_nav _ _ W) as Hnl. rewrite En in Hnav, Hnl. rewrite xv_length in Hnl.
    rewrite nv_nav_point_xr in Hnav by (try lia; congruence). congruence.
  Qed.

  Lemma nav_fin_reach k asf (F : list (list R)) ideal nd vars s qs :
    setup (N:=XR) k (xm F) ideal (xv nd) vars -> nv_reach asf (xm F) ideal (xv nd) vars s qs ->
    (exists v, ns_nav s = xv v /\ length v = k) /\ (forall c, In (NReq c) qs -> exists v, nc_nav c = xv v /\ length v = k).
  Proof.
    intros Hs. induction 1 as [|s qs c d s' out Hr IH Hin Hv Hit].
    - assert (H : exists v, xv nd = xv v /\ length v = k).
      { exists nd. split; auto. destruct Hs as (_ & _ & H & _). rewrite xv_length in H. auto. }
      split; auto. intros c [E|[]]. injection E as <-. auto.
    - pose proof (reach_outcome XR_ord _ _ _ _ _ _ _ _ _ _ _ _ Hs Hr Hin Hv Hit) as Ho.
      pose proof (ginv_reach XR_ord _ _ _ _ _ _ _ _ Hs Hr) as G. destruct IH as [(v & IH1 & IHl) IH2].
      destruct Ho as [rows decs _ -> _ _ ->|ub _ _ _ _ -> ->|ref speed ub _ _ _ _ _ Hl Hf ->|ref speed ub _ _ _ _ _ _ _ -> ->].
      + split; eauto. intros c' [E|Hc']; [discriminate|auto].
      + cbn. split; auto. intros c' [E|Hc']; auto. injection E as <-. cbn. auto.
      + destruct (forward_nav k asf F s ref speed _ s' _ v (g_wf _ _ _ _ _ _ _ G) (g_front _ _ _ _ _ _ _ G) IH1 Hf) as (pi & p & _ & _ & Hpl & Hnav).
        assert (X : exists w, ns_nav s' = xv w /\ length w = k) by (eexists; split; [exact Hnav|]; rewrite rcomb_length; congruence).
        split; auto. intros c' [E|Hc']; auto. injection E as <-. cbn. auto.
      + destruct (ns_step s =? 1)%Z; split; eauto.
  Qed.

  Lemma rcomb_half r v p : (1 <= r)%Z ->
    rcomb (IZR (r - 1) / IZR r) v (1 / IZR r) p = rcomb (1 - 1 / IZR r) v (1 / IZR r) p.
  Proof. intros H. f_equal. assert (1 <= IZR r) by (apply IZR_le; auto). rewrite minus_IZR. field. lra. Qed.

  Lemma rcomb_rcomb a b c nd p : length nd = length p ->
    rcomb a (rcomb (1 - b) nd b p) c p = rcomb (a * (1 - b)) nd (a * b + c) p.
  Proof.
    revert p. induction nd as [|x nd IH]; intros [|y p] H; try discriminate; auto. simpl. f_equal; [ring|]. apply IH. simpl in H. lia.
  Qed.

  Lemma nv_distance_xr v p nd : length v = length nd -> length p = length nd -> p <> nd ->
    nv_distance (N:=XR) (xv v) (xv p) (xv nd) = Ok (Fin (rdist v nd / rdist p nd * 100) : XR).
  Proof.
    intros H1 H2 H3. unfold nv_distance. rewrite !bsub_xr by auto. cbn [rbind]. rewrite !vnorm_sub. f_equal.
    assert (rdist p nd <> 0) by (rewrite rdist_0; auto).
    change (@ndiv XR (Fin (rdist v nd)) (Fin (rdist p nd))) with (xdiv (Fin (rdist v nd)) (Fin (rdist p nd))).
    rewrite xdiv_fin by auto. reflexivity.
  Qed.

  (** Constant preference: the closed form. *)
  Definition cap (t : nat) : nat := Nat.min t 100.

  Lemma constant_session k asf (F : list (list R)) ideal nd vars (q : list R) ds s c :
    setup (N:=XR) k (xm F) ideal (xv nd) vars ->
    nv_session asf (xm F) ideal (xv nd) vars ds s c ->
    Forall (fun d => forward d /\ nd_ref d = Some (xv q)) ds -> ds <> [] ->
    exists pi p, projection asf (nv_init (xm F) ideal (xv nd) vars) (xv q) pi /\ nth_error F pi = Some p /\ length p = k /\
      ns_proj s = Some pi /\ ns_ref s = Some (xv q) /\
      (ns_step s = 1 + Z.of_nat (Nat.min (length ds) 99))%Z /\
      ns_nav s = xv (rcomb (1 - INR (cap (length ds)) / 100) nd (INR (cap (length ds)) / 100) p) /\
      (p <> nd -> ns_dist s = (Fin (INR (cap (length ds))) : XR)).
  Proof.
    intros Hs H. induction H as [c Hc|ds s c d s' c' H IH Hv Hit]; intros Hall Hne; [congruence|].
    apply Forall_app in Hall. destruct Hall as [Hall Hd]. inversion Hd as [|? ? [Hfwd Href] _]; subst. clear Hd.
    destruct (session_step XR_ord _ _ _ _ _ _ _ _ _ _ _ _ Hs H Hfwd Hv Hit) as (G & ref & speed & ub & Eref & _ & _ & Hl & Hspec).
    assert (ref = xv q) by congruence. subst ref. clear Eref.
    pose proof (g_wf _ _ _ _ _ _ _ G) as W. pose proof (wf_count _ _ W) as Hcnt.
    assert (Hnd : length nd = k) by (destruct Hs as (_ & _ & Hx & _); rewrite xv_length in Hx; auto).
    assert (Hprev : exists t v, t = length ds /\ ns_nav s = xv v /\ length v = k /\ (ns_step s = 1 + Z.of_nat (Nat.min t 99))%Z /\
      ((t = 0%nat /\ s = nv_init (xm F) ideal (xv nd) vars /\ v = nd) \/
       (t <> 0%nat /\ ns_ref s = Some (xv q) /\ exists pi p, projection asf (nv_init (xm F) ideal (xv nd) vars) (xv q) pi /\ nth_error F pi = Some p /\
          length p = k /\ ns_proj s = Some pi /\ v = rcomb (1 - INR (cap t) / 100) nd (INR (cap t) / 100) p))).
    { destruct ds as [|d0 ds0].
      - inversion H; subst.
        + exists 0%nat, nd. repeat split; auto.
        + destruct ds; discriminate.
      - destruct (IH Hall) as (pi & p & A & B & C & D & E & E1 & E2 & _); [discriminate|].
        exists (length (d0 :: ds0)), (rcomb (1 - INR (cap (length (d0 :: ds0))) / 100) nd (INR (cap (length (d0 :: ds0))) / 100) p).
        split; [reflexivity|]. split; [exact E2|]. split; [rewrite rcomb_length; congruence|]. split; [exact E1|]. right. split; [discriminate|]. split; auto.
        exists pi, p. auto 10. }
    clear IH. destruct Hprev as (t & v & Et & Ev & Hvl & Hstep & Hprev).
    assert (Hleft : ns_left s = (100 - Z.of_nat (Nat.min t 99))%Z) by lia.
    rewrite app_length. cbn [length]. rewrite <- Et.
    destruct Hspec as (again & pi & proj & nav & rows & lb & ub' & dist & idx & Hr & Hp & Hpr & Hnav & Hrows & Hbs & Hdist & Hi & -> & _).
    cbn [ns_proj ns_ref ns_step ns_nav ns_dist].
    pose proof (wf_front _ _ W) as Hm. rewrite (g_front _ _ _ _ _ _ _ G) in *. destruct (fin_rows _ _ _ _ Hm Hpr) as (p & Hp' & -> & Hlp).
    assert (Hproj : projection asf (nv_init (xm F) ideal (xv nd) vars) (xv q) pi /\ (if again then Some (xv q) else ns_ref s) = Some (xv q) /\
       v = rcomb (1 - INR (cap t) / 100) nd (INR (cap t) / 100) p).
    { destruct Hprev as [(-> & Hs0 & ->)|(Ht & Eref & pi0 & p0 & A & B & C & D & ->)].
      - assert (again = true). { destruct Hr as [[_ ?]|[Hx _]]; auto; try (subst s; cbn in Hx; congruence). }
        subst again s. split; auto. split; auto. unfold cap. cbn [Nat.min INR].
        clear -Hlp Hnd. assert (X : length nd = length p) by congruence. clear Hlp Hnd. revert p X.
        induction nd as [|x nd IH]; intros [|y p] X; try discriminate; auto. simpl. f_equal; [field|]. apply IH. simpl in X; lia.
      - assert (again = false).
        { destruct Hr as [[Hx _]|(_ & r0 & cl & E1 & E2 & ->)]; [lia|].
          assert (r0 = xv q) by congruence. subst r0. rewrite allclose_refl in E2. injection E2 as <-. reflexivity. }
        subst again. rewrite Hp in D. injection D as ->. assert (p0 = p) by congruence. subst. auto. }
    destruct Hproj as (Hproj & Href' & Ev').
    rewrite (g_nadir _ _ _ _ _ _ _ G) in *. rewrite Ev in Hnav. rewrite nv_nav_point_xr in Hnav by (try lia; congruence).
    injection Hnav as <-.
    assert (Hnew : rcomb (IZR (ns_left s - 1) / IZR (ns_left s)) v (1 / IZR (ns_left s)) p =
      rcomb (1 - INR (cap (t + 1)) / 100) nd (INR (cap (t + 1)) / 100) p).
    { rewrite Ev', rcomb_rcomb by congruence. rewrite Hleft. unfold cap.
      destruct (le_lt_dec t 99) as [Ht|Ht].
      - rewrite !Nat.min_l by lia. rewrite plus_INR. cbn [INR]. rewrite !INR_IZR_INZ.
        rewrite !minus_IZR.
        assert (IZR (Z.of_nat t) <= 99) by (apply (IZR_le _ 99); lia).
        f_equal; field; lra.
      - rewrite !Nat.min_r by lia. replace (100 - Z.of_nat 99)%Z with 1%Z by lia.
        replace (INR 100) with 100 by (rewrite INR_IZR_INZ; reflexivity). cbn [Z.sub Z.add Z.opp Z.pos_sub].
        f_equal; field. }
    exists pi, p. split; auto. split; auto. split; auto. split; auto. split; auto. split.
    { destruct (Z.eqb_spec (ns_left s) 1); lia. }
    split; [congruence|].
    intros Hpn. rewrite Hnew in Hdist.
    rewrite nv_distance_xr in Hdist; [|rewrite rcomb_length; congruence|congruence|auto]. injection Hdist as <-.
    assert (Hc0 : 0 <= INR (cap (t + 1)) / 100) by (pose proof (pos_INR (cap (t + 1))); lra).
    rewrite rdist_comb by (auto; congruence). assert (rdist p nd <> 0) by (rewrite rdist_0; congruence).
    f_equal. field. auto.
  Qed.

  (** ** Two objectives, no user bounds, forward answers *)
  Lemma no_bounds_exceeds (row : list XR) n : ~ exceeds row (to_floats (repeat None n)).
  Proof.
    intros (r & x & b & Hx & Hb & Hlt). unfold to_floats in Hb. rewrite nth_error_map in Hb.
    destruct (nth_error (repeat None n) r) eqn:E; [|discriminate]. apply nth_error_In in E. apply repeat_spec in E. subst o.
    injection Hb as <-. assert (E2 : @nleb XR nnan x = false) by (apply (ol_nan_l XR XR_ord); apply (ol_nan XR XR_ord)).
    apply (ltb_true XR_ord) in Hlt. destruct Hlt as [Hlt _]. exact (diff_false_true (eq_trans (eq_sym E2) Hlt)).
  Qed.

  Lemma rcomb_between2 t v p : 0 <= t <= 1 -> rvle p v -> rvle p (rcomb (1 - t) v t p) /\ rvle (rcomb (1 - t) v t p) v.
  Proof. intros Ht H. apply rcomb_between; auto using rvle_refl. apply rvle_len in H. auto. Qed.

  Lemma two_objective_session asf (F : list (list R)) ideal nd vars ds s c :
    setup (N:=XR) 2 (xm F) ideal (xv nd) vars -> enclosed (xm F) ideal (xv nd) -> mutually_nondominated (xm F) ->
    nv_session asf (xm F) ideal (xv nd) vars ds s c ->
    Forall (fun d => forward d /\ nd_bounds d = Some [None; None] /\ exists ref, nd_ref d = Some ref /\ proper_asf asf (xm F) ideal (xv nd) ref) ds ->
    (forall i row, nth_error (xm F) i = Some row -> (In i (idx_list (ns_idx s)) <-> vle row (ns_nav s))) /\
    (match ns_proj s with Some p => In p (idx_list (ns_idx s)) | None => ds = [] end).
  Proof.
    intros Hs He Hnd H. induction H as [c Hc|ds s c d s' c' H IH Hv Hit]; intros Hall.
    - split; [|cbn; auto]. cbn [nv_init ns_idx ns_nav idx_list ns_proj]. intros i row Hi. destruct He as [He _]. rewrite Forall_forall in He. split.
      + intros _. apply He. eapply nth_error_In; eauto.
      + intros _. apply in_seq. split; [lia|]. assert (X : nth_error (A:=list XR) (xm F) i <> None) by (rewrite Hi; discriminate). apply nth_error_Some in X. exact X.
    - apply Forall_app in Hall. destruct Hall as [Hall Hd]. inversion Hd as [|? ? (Hfwd & Hbd & Href) _]; subst. clear Hd.
      specialize (IH Hall). destruct IH as [IH1 IH2].
      destruct (session_reach XR_ord _ _ _ _ _ _ _ _ _ Hs H) as (_ & qs & Hreach & _).
      destruct (boxed_reach XR_ord 2 _ _ _ _ _ _ _ (le_n 2) Hs He Hreach) as [Hbox _].
      destruct (nav_fin_reach _ _ _ _ _ _ _ _ Hs Hreach) as [(v & Ev & Hvl) _].
      destruct (session_step XR_ord _ _ _ _ _ _ _ _ _ _ _ _ Hs H Hfwd Hv Hit) as (G & ref & speed & ub & Eref & _ & Eub & Hl & Hspec).
      pose proof (g_wf _ _ _ _ _ _ _ G) as W. pose proof (wf_count _ _ W) as Hcnt.
      assert (Eub' : ub = repeat None 2) by (rewrite Hbd in Eub; injection Eub as <-; reflexivity). subst ub.
      rewrite <- (g_front _ _ _ _ _ _ _ G) in Hbox.
      destruct (forward_nested XR_ord 2 _ _ _ _ _ _ _ (le_n 2) W Hl Hbox Hspec) as (V1 & V2 & Hincl & Hbox' & rows & Hrows & Hba).
      destruct (boxed_rows 2 _ _ _ _ _ (wf_front _ _ W) Hbox Hrows) as (Hmr & Hbr & Hrow).
      destruct (forward_nav 2 asf F s ref speed _ s' _ v W (g_front _ _ _ _ _ _ _ G) Ev Hspec) as (pi & p & Epi & Ep & Hpl & Enav).
      rewrite rcomb_half in Enav by lia.
      (* the projection is reachable *)
      assert (Hpreach : In pi (idx_list (ns_idx s))).
      { destruct Hspec as (again & pi' & proj & nav & rows' & lb & ub' & dist & idx & Hr & Hp & _ & _ & _ & _ & _ & _ & -> & _).
        cbn in Epi. injection Epi as ->. destruct again.
        - destruct Href as (ref' & Er' & Hpr). assert (ref' = ref) by congruence. subst ref'.
          rewrite <- (g_front _ _ _ _ _ _ _ G), <- (g_ideal _ _ _ _ _ _ _ G), <- (g_nadir _ _ _ _ _ _ _ G) in Hpr.
          destruct (projection_best XR_ord 2 asf s ref pi W Hpr Hp) as [[A _] _]. auto.
        - rewrite Hp in IH2. auto. }
      assert (Hpv : rvle p v).
      { apply xvle_iff. rewrite <- Ev. apply (IH1 pi); auto. rewrite xm_nth, Ep. reflexivity. }
      assert (Ht : 0 <= 1 / IZR (ns_left s) <= 1).
      { assert (1 <= IZR (ns_left s)) by (apply IZR_le; lia). split.
        - apply Rlt_le. apply Rdiv_lt_0_compat; lra.
        - apply Rmult_le_reg_r with (IZR (ns_left s)); [lra|]. unfold Rdiv. rewrite Rmult_assoc, Rinv_l by lra. lra. }
      destruct (rcomb_between2 _ _ _ Ht Hpv) as [Hb1 Hb2].
      assert (Hprow : In (xv p) rows).
      { apply take_ok in Hrows. destruct (Forall2_In_l _ _ _ _ Hrows Hpreach) as [row' [Hin' Hn']].
        rewrite (g_front _ _ _ _ _ _ _ G), xm_nth, Ep in Hn'. injection Hn' as <-. auto. }
      pose proof (two_box XR_ord (ns_front s) rows (ns_nav s') (to_floats (repeat None 2)) (ns_lb s) (ns_ub s) (ns_lb s') (ns_ub s')) as TB.
      specialize (TB (wf_front _ _ W)). rewrite (g_front _ _ _ _ _ _ _ G) in TB at 1. specialize (TB Hnd Hbr Hrow).
      assert (X1 : nan_free (ns_nav s')) by (rewrite Enav; apply xv_nan_free).
      assert (X2 : length (ns_nav s') = 2%nat) by (rewrite Enav, xv_length, rcomb_length; congruence).
      specialize (TB X1 X2 (wf_lb _ _ W) (wf_ub _ _ W) Hl (proj1 (proj2 Hbox)) (proj2 (proj2 Hbox)) Hba).
      assert (X3 : exists row, In row rows /\ ~ exceeds row (to_floats (repeat None 2)) /\ vle row (ns_nav s')).
      { exists (xv p). split; auto. split; [apply no_bounds_exceeds|]. rewrite Enav. apply xvle_iff. auto. }
      specialize (TB X3).
      assert (Efr : ns_front s' = xm F) by (destruct (forward_spec_const _ _ _ _ _ _ _ Hspec) as (E & _); rewrite E; apply G).
      assert (Main : forall i row, nth_error (xm F) i = Some row -> (In i (idx_list (ns_idx s')) <-> vle row (ns_nav s'))).
      { intros i row Hi. destruct Hbox' as (Hbi & _). rewrite Hbi, box_idx_spec, Efr.
        assert (Hin : In row (ns_front s)) by (rewrite (g_front _ _ _ _ _ _ _ G); eapply nth_error_In; eauto).
        specialize (TB row Hin). split.
        - intros (row' & A & B). assert (row' = row) by congruence. subst row'. apply TB in B. tauto.
        - intros A. exists row. split; auto. apply TB. split; [|split; auto; apply no_bounds_exceeds].
          assert (Hi' : In i (idx_list (ns_idx s))).
          { apply (IH1 i row Hi). eapply (vle_trans XR_ord); [exact A|]. rewrite Enav, Ev. apply xvle_iff. auto. }
          apply take_ok in Hrows. destruct (Forall2_In_l _ _ _ _ Hrows Hi') as [row' [Hin' Hn']].
          rewrite (g_front _ _ _ _ _ _ _ G) in Hn'. congruence. }
      split; auto. rewrite Epi. apply (Main pi (xv p)); [rewrite xm_nth, Ep; reflexivity|]. rewrite Enav. apply xvle_iff. auto.
  Qed.
End XRNav.
