(** * NAUTILUS Navigator: liveness of forward sessions, concrete sessions, counterexamples. *)
From Coq Require Import ZArith List Bool Lia Reals Lra Floats.
From Verif Require Import Num NumXR NumF64 Py Np Spec NpFacts XRFacts MNavigator SNavigator PENautilus PNavigator PNavigator2 PNavigator3 PNavigator4 PNavigator5.
Import ListNotations.

(** The scalarizing function the code passes, as documented by desdeo_tools
    (PointMethodASF with rho = rho_sum = 1e-6; not part of this repository):
    max_i w_i (f_i - q_i) + 1e-6 * sum_i w_i (f_i - q_i),
    w_i = 1 / (nadir_i - (ideal_i - 1e-6)).  Used for examples only. *)
Definition eps6 {N : NumOps} : N := ndiv (nofZ 1) (nofZ 1000000).
Definition pm_terms {N : NumOps} (nadir ideal f q : list N) : list N :=
  vdiv (vsub f q) (vsub nadir (map (fun x => nsub x eps6) ideal)).
Definition pm_asf {N : NumOps} : @asf_fn N := fun nadir ideal f q =>
  match pm_terms nadir ideal f q with
  | [] => nnan
  | x :: l => nadd (fold_left nmaximum l x) (nmul eps6 (vsum (x :: l)))
  end.

Section Live.
  Context {N : NumOps} (L : OrdLaws N).
  Implicit Types (asf : @asf_fn N) (s : nv_state N) (d : nv_dict N) (c : nv_content N) (front : list (list N)).

  Lemma nv_validate_same c1 c2 (d : nv_dict N) : nc_ideal c1 = nc_ideal c2 -> nc_nadir c1 = nc_nadir c2 ->
    nv_validate c1 d = nv_validate c2 d.
  Proof. intros E1 E2. unfold nv_validate. rewrite E1, E2. reflexivity. Qed.

  (** A forward answer with an admissible row succeeds; so does one that keeps the reference point. *)
  Lemma forward_succeeds k asf front ideal nadir vars s qs c d ref :
    setup k front ideal nadir vars -> nv_reach asf front ideal nadir vars s qs -> In (NReq c) qs ->
    nv_validate c d = Ok tt -> forward d -> nd_ref d = Some ref -> proper_asf asf front ideal nadir ref ->
    (exists i, admissible front (ns_idx s) (ns_bounds s) i) ->
    (forall r0, ns_ref s = Some r0 -> exists b, allclose ref r0 = Ok b) ->
    exists s' c', nv_iterate asf (NReq c) (Some d) s = (s', Ok (NReq c')).
  Proof.
    intros Hs Hr Hin Hv [F1 F2] Eref Hp [i Hi] Hcl.
    pose proof (ginv_reach L _ _ _ _ _ _ _ _ Hs Hr) as G.
    destruct (nv_iterate asf (NReq c) (Some d) s) as [s' out] eqn:E.
    pose proof (reach_outcome L _ _ _ _ _ _ _ _ _ _ _ _ Hs Hr Hin Hv E) as Ho.
    destruct Ho; try congruence.
    - exists s'. unfold nv_request_of in *. subst out. eexists. reflexivity.
    - exfalso. assert (ref0 = ref) by congruence. subst ref0.
      rewrite <- (g_front _ _ _ _ _ _ _ G), <- (g_ideal _ _ _ _ _ _ _ G), <- (g_nadir _ _ _ _ _ _ _ G) in Hp.
      rewrite <- (g_front _ _ _ _ _ _ _ G) in Hi.
      match goal with F : fwd_failure _ _ _ |- _ => destruct F as [r0 Y7 Y8 Y9|bm Y7 Y8 Y9] end.
      + destruct (Hcl r0 Y8) as [b Hb]. congruence.
      + apply (proj1 (projection_none L k _ _ _ _ (g_wf _ _ _ _ _ _ _ G) Hp Y8) Y9 i). auto.
  Qed.

  (** Forward answers with an unchanged reference point never fail after the first one. *)
  Lemma repeat_session k asf front ideal nadir vars d ref t :
    setup k front ideal nadir vars -> front <> [] -> forward d -> nd_ref d = Some ref ->
    (forall c, nv_start (nv_init front ideal nadir vars) = NReq c -> nv_validate c d = Ok tt) ->
    proper_asf asf front ideal nadir ref -> allclose ref ref = Ok true ->
    exists s c, nv_session asf front ideal nadir vars (repeat d t) s c /\ (t <> 0 -> ns_ref s = Some ref).
  Proof.
    intros Hs Hne Hfwd Eref Hv0 Hp Hcl. induction t as [|t IH].
    - destruct (nv_start (nv_init front ideal nadir vars)) eqn:E; [|discriminate].
      exists (nv_init front ideal nadir vars), c. split; [constructor; auto|congruence].
    - destruct IH as (s & c & H & Hsr).
      destruct (session_reach L _ _ _ _ _ _ _ _ _ Hs H) as (Hq & qs & Hr & Hin).
      pose proof (ginv_reach L _ _ _ _ _ _ _ _ Hs Hr) as G.
      assert (Hv : nv_validate c d = Ok tt).
      { destruct (nv_start (nv_init front ideal nadir vars)) eqn:E; [|discriminate].
        rewrite <- (Hv0 _ eq_refl). injection Hq as <-. injection E as <-. apply nv_validate_same; cbn; apply G. }
      assert (Hex : exists s' c', nv_iterate asf (NReq c) (Some d) s = (s', Ok (NReq c'))).
      { destruct t as [|t].
        - inversion H; subst.
          2:{ match goal with E : _ ++ [_] = _ |- _ => destruct ds; discriminate E end. }
          eapply forward_succeeds; eauto.
          + cbn. destruct front as [|row front']; [congruence|]. exists 0. split; [cbn; auto|].
            exists row. split; auto. intros (r & x & b & _ & Hb & Hlt). rewrite nth_error_map in Hb.
            destruct (nth_error ideal r); [|discriminate]. injection Hb as <-.
            apply (ltb_true L) in Hlt. rewrite (ol_nan_l N L _ _ (ol_nan N L)) in Hlt. destruct Hlt; discriminate.
          + cbn. discriminate.
        - destruct (nv_iterate asf (NReq c) (Some d) s) as [s' out] eqn:E.
          pose proof (reach_outcome L _ _ _ _ _ _ _ _ _ _ _ _ Hs Hr Hin Hv E) as Ho.
          destruct Hfwd as [F1 F2]. destruct Ho; try congruence.
          + exists s'. unfold nv_request_of in *. subst out. eexists. reflexivity.
          + exfalso. assert (ref0 = ref) by congruence. subst ref0. specialize (Hsr ltac:(discriminate)).
            assert (Hst : ns_step s <> 1%Z).
            { clear -H L Hs F1 F2. assert (Hfw : forward d) by (split; auto).
              assert (X : forall ds s c, nv_session asf front ideal nadir vars ds s c -> Forall forward ds -> ds <> [] -> ns_step s <> 1%Z).
              { intros ds s0 c0 H0. induction H0 as [|ds s0 c0 d0 s1 c1 H0 IH Hv Hit]; intros Hall Hn; [congruence|].
                apply Forall_app in Hall. destruct Hall as [Hall Hd]. inversion Hd; subst.
                destruct (session_step L _ _ _ _ _ _ _ _ _ _ _ _ Hs H0 H3 Hv Hit) as (G & ref & speed & ub & _ & _ & _ & _ & Hspec).
                destruct Hspec as (? & ? & ? & ? & ? & ? & ? & ? & ? & _ & _ & _ & _ & _ & _ & _ & _ & -> & _). cbn.
                pose proof (wf_count _ _ (g_wf _ _ _ _ _ _ _ G)). destruct (Z.eqb_spec (ns_left s0) 1); lia. }
              eapply X; eauto; [|discriminate].
              apply Forall_forall. intros x Hx. apply repeat_spec in Hx. subst x. auto. }
            match goal with F : fwd_failure _ _ _ |- _ => destruct F as [r0 Y7 Y8 Y9|bm Y7 Y8 Y9] end.
            * congruence.
            * destruct Y7 as [[? _]|(_ & r0 & cl & A & B & C)]; [congruence|].
              assert (r0 = ref) by congruence. subst r0. rewrite Hcl in B. injection B as <-. discriminate. }
      destruct Hex as (s' & c' & Hit).
      exists s', c'. split.
      + replace (repeat d (S t)) with (repeat d t ++ [d]) by (symmetry; apply repeat_cons). econstructor; eauto.
      + intros _. destruct (session_step L _ _ _ _ _ _ _ _ _ _ _ _ Hs H Hfwd Hv Hit) as (_ & ref' & speed & ub & E' & _ & _ & _ & Hspec).
        assert (ref' = ref) by congruence. subst ref'.
        destruct Hspec as (again & ? & ? & ? & ? & ? & ? & ? & ? & Hrp & _ & _ & _ & _ & _ & _ & _ & -> & _). cbn.
        destruct again; auto. destruct t; [|apply Hsr; discriminate].
        inversion H; subst.
        2:{ match goal with E : _ ++ [_] = _ |- _ => destruct ds; discriminate E end. }
        destruct Hrp as [[_ ?]|[Hx _]]; [discriminate|]. cbn in Hx. congruence.
  Qed.
End Live.

Section PM.
  Open Scope R_scope.
  Lemma eps6_xr : @eps6 XR = (Fin (1 / 1000000) : XR).
  Proof. unfold eps6. apply coef_xr. lia. Qed.

  Lemma pm_terms_fin (nd id f q : list R) :
    length f = length nd -> length q = length nd -> rvle id nd ->
    exists l, pm_terms (N:=XR) (xv nd) (xv id) (xv f) (xv q) = xv l /\ length l = length nd.
  Proof.
    unfold pm_terms, vdiv, vsub. intros Hf Hq H. revert f q Hf Hq. rewrite eps6_xr. induction H as [|a b id nd Hab H IH]; intros f q Hf Hq.
    - destruct f; [|discriminate]. exists []. auto.
    - destruct f as [|x f]; [discriminate|]. destruct q as [|y q]; [discriminate|].
      destruct (IH f q) as [l [Hl Hn]]; [simpl in Hf; lia|simpl in Hq; lia|].
      exists ((x - y) / (b - (a - 1 / 1000000)) :: l). split; [|simpl; congruence].
      cbn [xv map zipw]. f_equal; [|exact Hl].
      change (xdiv (Fin (x - y)) (Fin (b - (a - 1 / 1000000))) = Fin ((x - y) / (b - (a - 1 / 1000000)))).
      apply xdiv_fin. lra.
  Qed.

  Lemma fold_max_fin (l : list R) (x : R) : exists m, fold_left (@nmaximum XR) (xv l) (Fin x : XR) = (Fin m : XR).
  Proof.
    revert x. induction l as [|y l IH]; intros x; [exists x; reflexivity|].
    cbn [xv map fold_left]. destruct (nmaximum_cases (N:=XR) (Fin x) (Fin y)) as [E|E]; rewrite E; apply IH.
  Qed.
  Lemma fold_max_nan (l : list XR) : fold_left (@nmaximum XR) l XNan = XNan.
  Proof. induction l as [|y l IH]; [reflexivity|]. cbn [fold_left]. assert (E : @nmaximum XR XNan y = XNan) by (destruct y; reflexivity). rewrite E. exact IH. Qed.

  Lemma pm_asf_proper (k : nat) (F : list (list R)) (id nd q : list R) :
    (1 <= k)%nat -> Forall (fun r => length r = k) F -> length nd = k -> length q = k -> rvle id nd ->
    proper_asf (N:=XR) pm_asf (xm F) (xv id) (xv nd) (xv q).
  Proof.
    intros Hk HF Hn Hq Hle. rewrite Forall_forall in HF. split; intros row Hrow; apply in_map_iff in Hrow; destruct Hrow as (f & <- & Hf); apply HF in Hf.
    - unfold pm_asf. destruct f as [|x f]; [simpl in Hf; lia|]. destruct q as [|y q]; [simpl in Hq; lia|].
      destruct nd as [|b nd]; [simpl in Hn; lia|]. inversion Hle; subst.
      unfold pm_terms, vdiv, vsub. cbn [xv map zipw].
      match goal with |- nisnan (nadd (fold_left nmaximum ?l ?x) _) = true => assert (E : fold_left (@nmaximum XR) l x = XNan) by apply fold_max_nan end.
      rewrite E. reflexivity.
    - unfold pm_asf. destruct (pm_terms_fin nd id f q) as [l [Hl Hll]]; [congruence|congruence|auto|]. rewrite Hl.
      destruct l as [|x l]; [simpl in Hll; lia|]. cbn [xv map].
      destruct (fold_max_fin l x) as [m Hm].
      match goal with |- nisnan (nadd ?a (nmul eps6 ?b)) = false => assert (E1 : a = (Fin m : XR)) by exact Hm; assert (E2 : exists t, b = (Fin t : XR)) end.
      { exists (fold_left Rplus (x :: l) 0). unfold vsum. apply (vsum_xr (x :: l) 0). }
      destruct E2 as [t E2]. rewrite E1, E2, eps6_xr. apply (xisnan_fin (m + 1 / 1000000 * t)).
  Qed.
End PM.

(** ** A concrete session with exact arithmetic, of any length. *)
Section Demo.
  Open Scope R_scope.
  Definition nF : list (list R) := [[0; 2]; [1; 1]; [2; 0]].
  Definition nnd : list R := [2; 2].
  Definition nid : list R := [0; 0].
  Definition nq : list R := [1; 1].
  Definition nV : list (list XR) := xm [[10]; [11]; [12]].
  Definition ndict : nv_dict XR := MkND (Some (xv nq)) (Some (VInt 3)) (Some (VBool false)) (Some [None; None]) (Some (VBool false)).

  Lemma nF_setup : setup (N:=XR) 2 (xm nF) (xv nid) (xv nnd) (Some nV).
  Proof. split; [|split; [|split]]; try reflexivity. apply xm_is_matrix. repeat constructor. Qed.
  Lemma nF_proper q : length q = 2%nat -> proper_asf (N:=XR) pm_asf (xm nF) (xv nid) (xv nnd) (xv q).
  Proof. intros H. apply (pm_asf_proper 2); auto. - repeat constructor. - repeat constructor; lra. Qed.
  Lemma nF_enclosed : enclosed (N:=XR) (xm nF) (xv nid) (xv nnd).
  Proof.
    split; [|split; apply xv_nan_free]. apply Forall_forall. intros r Hr. apply in_map_iff in Hr. destruct Hr as (f & <- & Hf).
    split; apply xvle_iff; simpl in Hf; destruct Hf as [<-|[<-|[<-|[]]]]; repeat constructor; lra.
  Qed.
  Lemma nF_mnd : @mutually_nondominated XR (xm nF).
  Proof.
    intros a b Ha Hb [H1 H2].
    apply in_map_iff in Ha. destruct Ha as (ra & <- & Ha). apply in_map_iff in Hb. destruct Hb as (rb & <- & Hb).
    apply xvle_iff in H1. apply H2. apply xvle_iff. clear H2.
    simpl in Ha, Hb. destruct Ha as [<-|[<-|[<-|[]]]], Hb as [<-|[<-|[<-|[]]]];
      inversion H1 as [|? ? ? ? A B]; subst; inversion B; subst; try (apply rvle_refl); lra.
  Qed.
  Lemma bany_false_xr (f : XR -> XR -> bool) (a b : list XR) : length a = length b ->
    Forall2 (fun x y => f x y = false) a b -> bany f a b = Ok false.
  Proof.
    intros HL H. unfold bany. rewrite bcast2_eq by auto. cbn [rmap]. f_equal. clear HL.
    induction H as [|x y a b Hxy H IH]; auto. cbn [zipw existsb]. rewrite Hxy. exact IH.
  Qed.
  Lemma ndict_valid c : nc_ideal c = xv nid -> nc_nadir c = xv nnd -> nv_validate c ndict = Ok tt.
  Proof.
    intros E1 E2. unfold nv_validate, ndict. cbn [nd_ref nd_speed nd_prev nd_bounds nd_stop]. rewrite E1, E2.
    rewrite (bany_false_xr nltb (xv nq) (xv nid)) by (auto; repeat constructor; apply xltb_fin_false; lra).
    rewrite (bany_false_xr (fun x y => nltb y x) (xv nq) (xv nnd)) by (auto; repeat constructor; apply xltb_fin_false; lra).
    reflexivity.
  Qed.
  (** For every [t] there is a session of [t] forward answers. *)
  Lemma nv_demo t : exists s c, nv_session pm_asf (xm nF) (xv nid) (xv nnd) (Some nV) (repeat ndict t) s c.
  Proof.
    destruct (repeat_session XR_ord 2 pm_asf (xm nF) (xv nid) (xv nnd) (Some nV) ndict (xv nq) t) as (s & c & H & _).
    - apply nF_setup. - discriminate. - split; reflexivity. - reflexivity.
    - intros c Hc. injection Hc as <-. apply ndict_valid; reflexivity.
    - apply nF_proper. reflexivity. - apply allclose_refl. - eauto.
  Qed.
  Lemma nv_demo_next t : exists s c s' c',
    nv_session pm_asf (xm nF) (xv nid) (xv nnd) (Some nV) (repeat ndict t) s c /\
    nv_validate c ndict = Ok tt /\ nv_iterate pm_asf (NReq c) (Some ndict) s = (s', Ok (NReq c')).
  Proof.
    destruct (nv_demo (S t)) as (s' & c' & H). replace (repeat ndict (S t)) with (repeat ndict t ++ [ndict]) in H by (symmetry; apply repeat_cons).
    inversion H as [|ds s c d s1 c1 H1 H2 H3 E]; subst.
    - match goal with E : [] = _ |- _ => destruct (repeat ndict t); discriminate E end.
    - apply app_inj_tail in E. destruct E as [-> ->]. exists s, c, s', c'. auto.
  Qed.
End Demo.
