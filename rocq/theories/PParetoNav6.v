(** * Pareto Navigator: sessions over the reals: finite values, the box, the approximation. *)
From Coq Require Import ZArith List Bool Lia Reals Lra.
From Verif Require Import Num NumXR Py Np Spec NpFacts XRFacts PAsf MRpm MParetoNav SParetoNav PParetoNav PParetoNav2 PParetoNav3 PParetoNav4 PParetoNav5.
Import ListNotations.

(** ** Classification *)
Section Class.
  Context {N : NumOps}.
  Lemma class_ref_spec (ideal nadir v : list N) l q : pn_class_ref ideal nadir (CVec v) l = Ok q ->
    length q = length l /\ forall i cl x, nth_error l i = Some cl -> nth_error q i = Some x ->
      match cl with CLess => nth_error ideal i = Some x | CGreater => nth_error nadir i = Some x | CEqual => nth_error v i = Some x | CBad => False end.
  Proof.
    unfold pn_class_ref. intros H. apply rseq_ok in H.
    assert (Hl : length q = length l). { apply (f_equal (@length _)) in H. rewrite zipw_length, seq_length, map_length in H. lia. }
    split; [exact Hl|]. intros i cl x Hc Hx.
    assert (E : nth_error (zipw (pn_class_value ideal nadir (CVec v)) (seq 0 (length l)) l) i = nth_error (map Ok q) i) by (rewrite H; reflexivity).
    assert (Hi : (i < length l)%nat) by (eapply nth_lt; eassumption).
    rewrite zipw_nth, (seq_nth_error _ _ Hi), Hc, nth_error_map, Hx in E. cbn in E. injection E as E.
    destruct cl; cbn in E; try (apply at_ok in E; exact E); discriminate.
  Qed.
  Lemma class_in_box (OL : OrdLaws N) (ideal nadir v : list N) l q : vle ideal nadir -> in_box v ideal nadir -> length l = length ideal ->
    pn_class_ref ideal nadir (CVec v) l = Ok q -> in_box q ideal nadir.
  Proof.
    intros Hin [Hv1 Hv2] Hl H. destruct (class_ref_spec _ _ _ _ _ H) as [Hq Hc].
    assert (Ln := Forall2_len _ _ _ Hin). assert (Lv := Forall2_len _ _ _ Hv1).
    assert (R : forall i x m n, nth_error q i = Some x -> nth_error ideal i = Some m -> nth_error nadir i = Some n -> nleb m x = true /\ nleb x n = true).
    { intros i x m n Hx Hm Hn. assert (Hi : (i < length l)%nat) by (rewrite <- Hq; eapply nth_lt; eassumption).
      destruct (nth_ex l i Hi) as (cl & Ecl). specialize (Hc i cl x Ecl Hx).
      destruct (Forall2_nth_l _ _ _ _ _ Hin Hm) as (n' & En' & Hmn). assert (n' = n) by congruence. subst n'.
      assert (Nm : nisnan m = false) by (eapply leb_notnan_l; eassumption). assert (Nn : nisnan n = false) by (eapply leb_notnan_r; eassumption).
      destruct cl; [| | |contradiction].
      - assert (x = m) by congruence. subst x. split; [apply (ol_refl _ OL); exact Nm|exact Hmn].
      - assert (x = n) by congruence. subst x. split; [exact Hmn|apply (ol_refl _ OL); exact Nn].
      - destruct (Forall2_nth_l _ _ _ _ _ Hv1 Hm) as (x1 & E1 & L1). destruct (Forall2_nth_r _ _ _ _ _ Hv2 Hn) as (x2 & E2 & L2).
        assert (x1 = x /\ x2 = x) as [-> ->] by (split; congruence). auto. }
    split; apply Forall2_from_nth; try lia.
    - intros i m x Hm Hx. destruct (nth_ex nadir i) as (n & Hn); [rewrite <- Ln; eapply nth_lt; eassumption|]. exact (proj1 (R i x m n Hx Hm Hn)).
    - intros i x n Hx Hn. destruct (nth_ex ideal i) as (m & Hm); [rewrite Ln; eapply nth_lt; eassumption|]. exact (proj2 (R i x m n Hx Hm Hn)).
  Qed.
  Lemma class_ex (ideal nadir v : list N) l : length ideal = length l -> length nadir = length l -> length v = length l -> forallb class_ok l = true ->
    exists q, pn_class_ref ideal nadir (CVec v) l = Ok q.
  Proof.
    intros Hi Hn Hv Hc. unfold pn_class_ref.
    assert (HH : Forall (fun r => exists x, r = Ok x) (zipw (pn_class_value ideal nadir (CVec v)) (seq 0 (length l)) l)).
    { apply Forall_forall. intros r Hr. apply In_nth_error in Hr. destruct Hr as (i & Hr). rewrite zipw_nth in Hr.
      destruct (nth_error l i) as [cl|] eqn:Ec; [|destruct (nth_error (seq 0 (length l)) i); discriminate].
      assert (Li : (i < length l)%nat) by (eapply nth_lt; eassumption). rewrite (seq_nth_error _ _ Li) in Hr. injection Hr as <-.
      apply nth_error_In in Ec. pose proof (proj1 (forallb_forall _ _) Hc _ Ec) as Hcl.
      destruct cl; cbn; try discriminate; unfold at_.
      - destruct (nth_ex ideal i) as (x & ->); [lia|]. eauto.
      - destruct (nth_ex nadir i) as (x & ->); [lia|]. eauto.
      - destruct (nth_ex v i) as (x & ->); [lia|]. eauto. }
    revert HH. generalize (zipw (pn_class_value ideal nadir (CVec v)) (seq 0 (length l)) l). intros rs HH. clear - HH.
    induction HH as [|r rs (x & ->) HH (q & IH)]; [exists []; reflexivity|]. exists (x :: q). cbn. rewrite IH. reflexivity.
  Qed.
End Class.

Open Scope R_scope.

Section Finite.
  Context (e : pn_env XR) (k : nat) (s0 : pn_state XR).

  Record pn_fin (s : pn_state XR) : Prop := {
    fin_cur : forall v, ps_cur s = Some (CVec v) -> exists c, v = xv c;
    fin_ref : forall q, ps_ref s = Some q -> exists r, q = xv r /\ length r = k;
    fin_speed : forall a, ps_speed s = Some a -> exists r, a = (Fin r : XR) }.

  Context (Hk : (2 <= k)%nat) (HLP : lp_exact (pe_lp e))
    (HH : forall pts eqs, pe_hull e pts = Ok eqs -> is_matrix (S k) eqs)
    (HP : match pe_prob e with PMO evaluate _ => forall x, length (evaluate x) = k | PDisc objs decs => objs <> [] /\ is_matrix k objs end)
    (HR : forall pts eqs, pe_hull e pts = Ok eqs -> exists r, eqs = xm r)
    (HE : match pe_prob e with PMO evaluate _ => forall x, exists r, evaluate x = xv r | PDisc objs _ => exists r, objs = xm r end)
    (HD : pn_real_decisions e).

  Lemma class_fin ideal nadir c l q : pn_class_ref (xv ideal : list XR) (xv nadir) (CVec (xv c)) l = Ok q -> exists r, q = xv r.
  Proof.
    intros H. destruct (class_ref_spec _ _ _ _ _ H) as [Hl Hc].
    assert (HF : Forall (fun x => exists r, x = Fin r) q).
    { apply Forall_forall. intros x Hx. apply In_nth_error in Hx. destruct Hx as (i & Hx).
      destruct (nth_ex l i) as (cl & Ec); [rewrite <- Hl; eapply nth_lt; eassumption|]. specialize (Hc i cl x Ec Hx).
      destruct cl; [| | |contradiction]; rewrite xv_nth in Hc; match type of Hc with option_map _ ?o = _ => destruct o end; try discriminate; injection Hc as <-; eauto. }
    clear - HF. induction HF as [|x q (r & ->) HF (rs & ->)]; [exists []; reflexivity|]. exists (r :: rs). reflexivity.
  Qed.

  (** The reference point and the step of an accepted navigation answer are finite. *)
  Lemma nav_fin d s s' rq c i n : pn_ok e k s -> pn_rl s -> pn_fin s -> length i = k -> is_true (pd_show d) = false ->
    pn_validate (PReq c i n) d = Ok tt -> pn_answers k (PReq c i n) d ->
    pn_handle e d s = (s', Ok rq) ->
    exists cu r a, ps_cur s = Some (CVec (xv cu)) /\ ps_ref s' = Some (xv r) /\ length r = k /\ ps_speed s' = Some (Fin a : XR).
  Proof.
    intros HO HL HF Hi Hs Hv (An1 & An2 & An3) H. apply handle_ok in H; [|exact Hs].
    destruct H as (a & c' & q & dir & z & E1 & E2 & E3 & E4 & E5 & -> & ->). cbn [p_cur p_ref p_speed ps_ref ps_speed].
    destruct c' as [v|x]; [|cbn in E5; discriminate]. destruct (fin_cur _ HF _ E2) as (cu & ->).
    assert (Hq : exists r, q = xv r /\ length r = k).
    { unfold pn_ref_of in E3. destruct (pd_ref d) as [ra|] eqn:Er.
      - destruct (An1 _ eq_refl) as (r & ->). injection E3 as <-. exists r. split; [reflexivity|].
        cbn [pn_validate] in Hv. rewrite Hs in Hv. apply rbind_ok in Hv. destruct Hv as (u & _ & Hv). rewrite Er in Hv.
        destruct (pd_class d); [discriminate|]. apply ref_valid_len in Hv. destruct Hv as (q' & Eq & Hl). injection Eq as <-. rewrite xv_length in Hl. lia.
      - destruct (pd_class d) as [l|] eqn:Ec.
        + destruct HL as [(ideal & nadir & Ei & En & _) _ _]. rewrite Ei, En in E3. destruct (class_fin _ _ _ _ _ E3) as (r & ->). exists r. split; [reflexivity|].
          apply class_ref_spec in E3. destruct E3 as [E3 _]. rewrite xv_length in E3. rewrite E3. apply An3. reflexivity.
        + destruct (ps_ref s) as [q0|] eqn:Eq; [|discriminate]. injection E3 as <-. eapply fin_ref; eassumption. }
    destruct Hq as (r & -> & Hr).
    assert (Ha : exists ar, a = (Fin ar : XR)).
    { unfold pn_step_of in E1. apply rbind_ok in E1. destruct E1 as (a0 & E1 & E1').
      assert (exists r0, a0 = (Fin r0 : XR)) as (r0 & ->).
      { destruct (pd_speed d) as [w|] eqn:Ew.
        - destruct (An2 _ Ew) as (zz & ->). rewrite speed_int in E1. injection E1 as <-. eauto.
        - destruct (ps_speed s) as [a1|] eqn:Ea; [|discriminate]. injection E1 as ->. eapply fin_speed; eassumption. }
      destruct (is_true (pd_back d)); injection E1' as <-; eexists; reflexivity. }
    destruct Ha as (ar & ->). exists cu, r, ar. auto.
  Qed.

  Lemma step_fin q d s s' q' : pn_ok e k s -> pn_rl s -> pn_fin s -> shown e s q -> pn_validate q d = Ok tt -> pn_answers k q d ->
    pn_iterate e q (Some d) s = (s', Ok q') -> pn_fin s'.
  Proof.
    intros HO HL HF HS Hv An H. pose proof An as (An1 & An2 & An3). pose proof HO as [HO1 HO2 _ _ _ _].
    destruct q as [i n p|c i n|c x f|c x f]; cbn [pn_iterate] in H.
    - unfold sbind, lift in H. cbn [attr] in H. apply initial_ok in H. destruct H as (q & c & v & a & -> & -> & Ev & Ea & Hm).
      destruct HS as (Ei & _ & _). constructor; cbn.
      + intros v' E. injection E as ->. destruct (pd_ref d) as [ra|] eqn:Er.
        * destruct Hm as (q'' & -> & -> & Hst). unfold pn_asf_start in Hst. unfold pn_real_decisions in HD. destruct (pe_prob e) as [ev mi|objs decs].
          -- apply rbind_ok in Hst. destruct Hst as (x & Hst & E). injection E as ->. cbn in Hst. apply rbind_ok in Hst. destruct Hst as ([x'|] & Hst & E); [|discriminate]. injection E as ->. eauto.
          -- apply rbind_ok in Hst. destruct Hst as (x & _ & E). discriminate.
        * destruct Hm as (_ & z & r & _ & Hr & E). injection E as ->. apply py_nth_In in Hr. destruct HL as [_ (pos & Ep) _]. rewrite Ep in Hr.
          unfold xm in Hr. apply in_map_iff in Hr. destruct Hr as (r0 & <- & _). eauto.
      + intros q1 E. destruct (pd_ref d) as [ra|] eqn:Er.
        * destruct Hm as (q'' & -> & -> & _). injection E as <-. destruct (An1 _ eq_refl) as (r & E). injection E as ->. exists r. split; [reflexivity|].
          cbn [pn_validate] in Hv. rewrite Er in Hv. apply rbind_ok in Hv. destruct Hv as ([] & Hv & _). destruct (pd_pref d); [discriminate|].
          apply ref_valid_len in Hv. destruct Hv as (q' & Eq & Hl). injection Eq as <-. rewrite xv_length in Hl. subst i. lia.
        * destruct Hm as (-> & _). eapply fin_ref; eassumption.
      + intros a1 E. injection E as <-. destruct (An2 _ Ev) as (zz & ->). rewrite speed_int in Ea. injection Ea as <-. eauto.
    - destruct (is_true (pd_show d)) eqn:Es.
      + apply show_ok in H; [|exact Es]. destruct H as (c' & x & f & _ & -> & -> & _). destruct HF. constructor; auto.
      + destruct HS as (_ & Ei & _). assert (Hi : length i = k) by (subst i; exact HO1).
        destruct (nav_fin d s s' q' c i n HO HL HF Hi Es Hv An H) as (cu & r & a & F1 & F2 & F3 & F4).
        destruct (nav_closest e k Hk HR d s s' q' cu r a HLP HO HL Es H F1 F2 F3 F4) as (_ & ideal & nadir & pts & extra & eqs & z & _ & _ & _ & _ & _ & _ & _ & _ & Ez & _).
        constructor.
        * rewrite Ez. intros v E. injection E as <-. eauto.
        * rewrite F2. intros q E. injection E as <-. eauto.
        * rewrite F4. intros a' E. injection E as <-. eauto.
    - destruct (is_true (pd_sat d)) eqn:Es.
      + apply satisfied_ok in H; [|exact Es]. destruct H as (c' & x' & f' & _ & _ & -> & ->). exact HF.
      + apply continue_ok in H; [|cbn; rewrite Es; reflexivity]. destruct H as (x' & f' & eqs & lo & hi & c' & Ha & Hc & ->).
        destruct Ha as [_ _ _ _ _ _ _ _ _ _ _ (B1 & B2 & B3 & B4)]. destruct HF. constructor; rewrite ?B1, ?B2, ?B3; auto.
    - cbn in H. injection H as <- <-. exact HF.
  Qed.

  Context (HO0 : pn_ok e k s0) (HL0 : pn_rl s0) (HN0 : ps_cur s0 = None /\ ps_ref s0 = None /\ ps_speed s0 = None).
  Lemma run_fin {G} (g : G -> _) g0 (A : pn_request XR -> pn_dict XR -> Prop) s l h : (forall q d, A q d -> pn_answers k q d) ->
    pn_run e g g0 A s0 s l h -> pn_ok e k s /\ pn_rl s /\ pn_fin s.
  Proof.
    intros HA H. induction H as [|s q qs h d s' q' H IH Hv Ha Hi].
    - destruct HN0 as (E1 & E2 & E3). split; [exact HO0|]. split; [exact HL0|]. constructor; rewrite ?E1, ?E2, ?E3; discriminate.
    - destruct IH as (I1 & I2 & I3). split; [eapply iterate_ok_inv; eauto|]. split; [eapply iterate_rl; eauto|].
      eapply step_fin; eauto. eapply (run_shown XR_ord); eassumption.
  Qed.
End Finite.

(** ** The approximation grows *)
Lemma rcomb_0_1 f z : length f = length z -> rcomb 0 f 1 z = z.
Proof. revert z. induction f as [|x f IH]; intros [|y z] H; try discriminate; [reflexivity|]. cbn in *. rewrite IH by lia. f_equal. lra. Qed.
Lemma wsum_len k ws pts : Forall (fun p => length p = k) pts -> length (wsum k ws pts) = k.
Proof.
  intros H. revert ws. induction H as [|p pts Hp H IH]; intros [|w ws]; cbn; try apply repeat_length. rewrite rcomb_length; [exact Hp|]. rewrite IH. exact Hp.
Qed.
Lemma wsum_snoc k ws pts f : length ws = length pts -> length f = k -> Forall (fun p => length p = k) pts -> wsum k (ws ++ [0]) (pts ++ [f]) = wsum k ws pts.
Proof.
  revert pts. induction ws as [|w ws IH]; intros [|p pts] Hl Hf Hp; try discriminate.
  - cbn. apply rcomb_0_1. rewrite repeat_length. exact Hf.
  - cbn. inversion Hp; subst. rewrite IH; auto.
Qed.
Lemma rsum_snoc ws x : rsum (ws ++ [x]) = rsum ws + x.
Proof. induction ws as [|w ws IH]; cbn; [lra|]. rewrite IH. lra. Qed.
Lemma hull_snoc k pts f z : length f = k -> Forall (fun p => length p = k) pts -> in_hull k pts z -> in_hull k (pts ++ [f]) z.
Proof.
  intros Hf Hp (ws & W1 & W2 & W3 & ->). exists (ws ++ [0]). rewrite !app_length. cbn. split; [lia|]. split; [apply Forall_app; split; [exact W2|constructor; [lra|constructor]]|].
  split; [rewrite rsum_snoc; lra|]. symmetry. apply wsum_snoc; auto.
Qed.
Lemma wsum_zero k pts n : Forall (fun p => length p = k) pts -> wsum k (repeat 0 n) pts = repeat 0 k.
Proof.
  intros H. revert n. induction H as [|p pts Hp H IH]; intros [|n]; cbn; try reflexivity. rewrite IH. apply rcomb_0_1. rewrite repeat_length. exact Hp.
Qed.
Lemma rsum_zero n : rsum (repeat 0 n) = 0.
Proof. induction n; cbn; lra. Qed.
Lemma rcomb_1_zero p n : length p = n -> rcomb 1 p 1 (repeat 0 n) = p.
Proof. revert n. induction p as [|x p IH]; intros [|n] H; try discriminate; [reflexivity|]. cbn in *. rewrite IH by lia. f_equal. lra. Qed.
Lemma hull_point k pts p : Forall (fun p => length p = k) pts -> In p pts -> in_hull k pts p.
Proof.
  intros H. induction H as [|q pts Hq H IH]; intros Hin; [contradiction|]. destruct Hin as [->|Hin].
  - exists (1 :: repeat 0 (length pts)). cbn. rewrite repeat_length. split; [reflexivity|]. split; [constructor; [lra|]|].
    + clear. induction (length pts); cbn; constructor; auto. lra.
    + rewrite rsum_zero. split; [lra|]. rewrite wsum_zero by exact H. symmetry. apply rcomb_1_zero. exact Hq.
  - destruct (IH Hin) as (ws & W1 & W2 & W3 & E). exists (0 :: ws). cbn. split; [lia|]. split; [constructor; [lra|exact W2]|]. split; [lra|].
    rewrite rcomb_0_1; [exact E|]. rewrite wsum_len by exact H. exact Hq.
Qed.

(** ** Navigation answers always succeed once there is a direction *)
Lemma lp_bounded k ideal nadir eqs q : (0 < k)%nat -> length ideal = k -> length nadir = k -> length q = k -> Forall2 Rlt ideal nadir ->
  Forall (fun r => length r = S k) eqs ->
  exists low, forall x, feasible (rlpA k ideal nadir eqs) (q ++ rlpb eqs) (rbnds ideal nadir) x -> low <= rdot (1 :: repeat 0 k) x.
Proof.
  intros Hk Hi Hn Hq Hlt He. destruct (nth_ex ideal 0) as (m & Em); [lia|]. destruct (nth_ex nadir 0) as (n & En); [lia|]. destruct (nth_ex q 0) as (q0 & Eq); [lia|].
  exists ((m - q0) / (n - m)). intros x HF. destruct x as [|t z]; [destruct HF as (H & _); cbn in H; lia|]. rewrite lp_cost.
  apply lp_system in HF; auto. destruct HF as ((_ & HA & _) & HDv). assert (Lz := rvle_len _ _ HA). destruct (nth_ex z 0) as (z0 & Ez); [lia|].
  specialize (HDv 0%nat z0 q0 n m Ez Eq En Em). pose proof (rvle_nth _ _ _ _ _ HA Em Ez).
  destruct (Forall2_nth_l _ _ _ _ _ Hlt Em) as (n' & En' & Hmn). assert (n' = n) by congruence. subst n'.
  eapply Rle_trans; [|exact HDv]. unfold Rdiv. apply Rmult_le_compat_r; [left; apply Rinv_0_lt_compat; lra|lra].
Qed.
Lemma feasible_ex k ideal nadir eqs q z : length ideal = k -> length nadir = k -> length q = k -> Forall2 Rlt ideal nadir ->
  Forall (fun r => length r = S k) eqs -> approximation eqs ideal nadir z ->
  exists x, feasible (rlpA k ideal nadir eqs) (q ++ rlpb eqs) (rbnds ideal nadir) x.
Proof.
  intros Hi Hn Hq Hlt He HA. assert (Lz : length z = k). { destruct HA as (_ & H & _). apply rvle_len in H. lia. }
  assert (HM : exists t, deviation_le ideal nadir q z t).
  { clear HA He eqs. subst k. revert q z Hn Hq Lz. induction Hlt as [|m n ideal nadir Hmn Hlt IH]; intros q z Hn Hq Lz.
    - exists 0. intros [|i] zi qi ni mi E1 E2 E3 E4; discriminate.
    - destruct q as [|q0 q]; [discriminate|]. destruct z as [|z0 z]; [discriminate|]. cbn in Hn, Hq, Lz.
      destruct (IH q z) as (t & Ht); try lia. exists (Rmax t ((z0 - q0) / (n - m))).
      intros [|i] zi qi ni mi E1 E2 E3 E4; cbn in *.
      + injection E1 as <-; injection E2 as <-; injection E3 as <-; injection E4 as <-. apply Rmax_r.
      + eapply Rle_trans; [eapply Ht; eassumption|apply Rmax_l]. }
  destruct HM as (t & Ht). exists (t :: z). apply lp_system; auto.
Qed.

Section Progress.
  Context (e : pn_env XR) (k : nat) (s0 : pn_state XR).
  Context (Hk : (2 <= k)%nat) (HLP : lp_exact (pe_lp e))
    (HH : forall pts eqs, pe_hull e pts = Ok eqs -> is_matrix (S k) eqs)
    (HP : match pe_prob e with PMO evaluate _ => forall x, length (evaluate x) = k | PDisc objs decs => objs <> [] /\ is_matrix k objs end)
    (HR : forall pts eqs, pe_hull e pts = Ok eqs -> exists r, eqs = xm r)
    (HE : match pe_prob e with PMO evaluate _ => forall x, exists r, evaluate x = xv r | PDisc objs _ => exists r, objs = xm r end)
    (HD : pn_real_decisions e)
    (HO0 : pn_ok e k s0) (HL0 : pn_rl s0) (HN0 : ps_cur s0 = None /\ ps_ref s0 = None /\ ps_speed s0 = None)
    (HB0 : forall f, In f (ps_pos s0) -> in_box f (ps_ideal s0) (ps_nadir s0)).

  (** The current solution is between ideal and nadir. *)
  Definition cur_boxed (s : pn_state XR) : Prop := forall c, ps_cur s = Some c -> exists v, c = CVec v /\ in_box v (ps_ideal s) (ps_nadir s).
  Lemma rlt_vle ideal nadir : Forall2 Rlt ideal nadir -> @vle XR (xv ideal) (xv nadir).
  Proof. intros H. apply xvle_iff. eapply F2_impl; [|exact H]. intros; cbn; lra. Qed.
  Lemma step_boxed q d s s' q' : pn_ok e k s -> pn_rl s -> pn_fin k s -> shown e s q -> cur_boxed s ->
    (match q with PInit _ _ _ => s = s0 | _ => True end) -> pn_validate q d = Ok tt -> pn_answers k q d -> pn_prefers q d ->
    pn_iterate e q (Some d) s = (s', Ok q') -> cur_boxed s'.
  Proof.
    intros HO HL HF HS HB Hq0 Hv An Hp H. pose proof An as (An1 & An2 & An3). pose proof HO as [HO1 HO2 _ _ _ _].
    destruct q as [i n p|c i n|c x f|c x f]; cbn [pn_iterate] in H.
    - unfold sbind, lift in H. cbn [attr] in H. apply initial_ok in H. destruct H as (q & c & v & a & -> & -> & Ev & Ea & Hm).
      cbn in Hp. rewrite Hp in Hm. destruct Hm as (-> & z & r & _ & Hr & ->). apply py_nth_In in Hr. intros c E. cbn in E. injection E as <-.
      exists r. split; [reflexivity|]. subst s. exact (HB0 _ Hr).
    - destruct (is_true (pd_show d)) eqn:Es.
      + apply show_ok in H; [|exact Es]. destruct H as (c' & x & f & _ & -> & -> & _). exact HB.
      + destruct HS as (_ & Ei & _). assert (Hi : length i = k) by (subst i; exact HO1).
        destruct (nav_fin e k Hk d s s' q' c i n HO HL HF Hi Es Hv An H) as (cu & r & a & F1 & F2 & F3 & F4).
        destruct (nav_closest e k Hk HR d s s' q' cu r a HLP HO HL Es H F1 F2 F3 F4) as (_ & ideal & nadir & pts & extra & eqs & z & Eid & End & _ & _ & _ & _ & _ & _ & Ez & HC).
        apply handle_ok in H; [|exact Es]. destruct H as (? & ? & ? & ? & z' & _ & _ & _ & _ & _ & -> & _). cbn in Ez. injection Ez as ->.
        intros c0 E. cbn in E. injection E as <-. eexists. split; [reflexivity|]. cbn [ps_ideal ps_nadir p_cur p_ref p_speed]. rewrite Eid, End.
        destruct HC as ((_ & C1 & C2) & _). split; apply xvle_iff; assumption.
    - destruct (is_true (pd_sat d)) eqn:Es.
      + apply satisfied_ok in H; [|exact Es]. destruct H as (c' & x' & f' & _ & _ & -> & ->). exact HB.
      + pose proof H as H'. apply continue_ok in H; [|cbn; rewrite Es; reflexivity]. destruct H as (x' & f' & eqs & lo & hi & c' & Ha & Hc & ->).
        assert (HNN : pn_nn s).
        { destruct HL as [(ideal & nadir & Ei & En & _) (pos & Ep) Hpo]. constructor; rewrite ?Ei, ?En, ?Ep; try apply xv_nan_free; [apply xm_nan_free|].
          intros x1 f1 E1. destruct (Hpo _ _ E1) as (r & ->). apply xv_nan_free. }
        destruct (added_wide XR_ord e k Hk _ _ _ _ _ _ _ HO HNN Ha) as (_ & (W1 & W2) & _).
        destruct Ha as [_ _ _ _ _ _ _ _ _ _ _ (B1 & B2 & B3 & B4)]. intros c0 E. rewrite B3 in E. destruct (HB _ E) as (v & -> & (I1 & I2)).
        exists v. split; [reflexivity|]. split; [eapply (vle_trans XR_ord); eauto|eapply (vle_trans XR_ord); eauto].
    - cbn in H. injection H as <- <-. exact HB.
  Qed.
  Lemma run_init_state {G} (g : G -> _) g0 A s l h : pn_run e g g0 A s0 s l h -> match l with PInit _ _ _ :: _ => s = s0 | _ => True end.
  Proof.
    intros H. inversion H as [|s1 q qs h1 d s' q' H1 Hv Ha Hi]; subst; [reflexivity|].
    pose proof (iterate_shown XR_ord e q d s1 s q' (run_shown XR_ord e _ _ _ _ _ _ _ _ H1) Hi) as [_ Hm]. destruct q'; auto. destruct q; contradiction.
  Qed.
  Lemma run_boxed {G} (g : G -> _) g0 (A : pn_request XR -> pn_dict XR -> Prop) s l h :
    (forall q d, A q d -> pn_answers k q d /\ pn_prefers q d) -> pn_run e g g0 A s0 s l h -> cur_boxed s.
  Proof.
    intros HA H. induction H as [|s q qs h d s' q' H IH Hv Ha Hi].
    - destruct HN0 as (E1 & _). intros c E. rewrite E1 in E. discriminate.
    - pose proof (run_fin e k s0 Hk HLP HH HP HR HE HD HO0 HL0 HN0 g g0 A s (q :: qs) h (fun q d H => proj1 (HA q d H)) H) as (I1 & I2 & I3).
      eapply step_boxed; eauto.
      + eapply (run_shown XR_ord); eassumption.
      + apply run_init_state in H. destruct q; auto.
      + apply HA; exact Ha.
      + apply HA; exact Ha.
  Qed.

  (** The approximation is the one of all solutions. *)
  Lemma run_hull {G} (g : G -> _) g0 (A : pn_request XR -> pn_dict XR -> Prop) s l h : (exists eqs, approx_of e k s0 (ps_pos s0) eqs) ->
    pn_run e g g0 A s0 s l h -> exists eqs, approx_of e k s (ps_pos s) eqs.
  Proof.
    intros H0 H. induction H as [|s q qs h d s' q' H IH Hv Ha Hi]; [exact H0|]. destruct IH as (eqs & [A1 A2 A3 A4 A5]).
    destruct q as [i n p|c i n|c x f|c x f]; cbn [pn_iterate] in Hi.
    - unfold sbind, lift in Hi. cbn [attr] in Hi. apply initial_ok in Hi. destruct Hi as (q & c & v & a & -> & _). exists eqs. constructor; assumption.
    - destruct (is_true (pd_show d)) eqn:Es.
      + apply show_ok in Hi; [|exact Es]. destruct Hi as (c' & x & f & _ & -> & -> & _). exists eqs. constructor; assumption.
      + apply handle_ok in Hi; [|exact Es]. destruct Hi as (? & ? & ? & ? & z' & _ & _ & _ & _ & _ & -> & _). exists eqs. constructor; assumption.
    - destruct (is_true (pd_sat d)) eqn:Es.
      + apply satisfied_ok in Hi; [|exact Es]. destruct Hi as (c' & x' & f' & _ & _ & -> & ->). exists eqs. constructor; assumption.
      + apply continue_ok in Hi; [|cbn; rewrite Es; reflexivity]. destruct Hi as (x' & f' & eqs' & lo & hi & c' & Hd & Hc & ->).
        destruct Hd as [D1 D2 D3 D4 D5 D6 D7 D8 D9 D10 D11 _]. exists eqs'. constructor; auto; [rewrite D3; exact D4|]. eapply HH; eassumption.
    - cbn in Hi. injection Hi as <- <-. exists eqs. constructor; assumption.
  Qed.

  (** The current solution belongs to the approximation. *)
  Context (HX : hull_exact k (pe_hull e)).
  Definition cur_in (s : pn_state XR) : Prop := forall v pts, ps_cur s = Some (CVec (xv v)) -> ps_pos s = xm pts -> in_hull k pts v.
  Lemma step_in q d s s' q' : pn_ok e k s -> pn_rl s -> pn_fin k s -> shown e s q -> cur_in s -> (exists eqs, approx_of e k s (ps_pos s) eqs) ->
    pn_validate q d = Ok tt -> pn_answers k q d -> pn_prefers q d ->
    pn_iterate e q (Some d) s = (s', Ok q') -> cur_in s'.
  Proof.
    intros HO HL HF HS HC HAp Hv An Hp H. pose proof HO as [HO1 HO2 HO3 _ HO5 _].
    destruct q as [i n p|c i n|c x f|c x f]; cbn [pn_iterate] in H.
    - unfold sbind, lift in H. cbn [attr] in H. apply initial_ok in H. destruct H as (q & c & v & a & -> & -> & Ev & Ea & Hm).
      cbn in Hp. rewrite Hp in Hm. destruct Hm as (-> & z & r & _ & Hr & ->). apply py_nth_In in Hr. intros v' pts E Ep. cbn in E, Ep. injection E as ->.
      rewrite Ep in Hr, HO3. unfold xm in Hr. apply in_map_iff in Hr. destruct Hr as (r0 & E & Hr). apply xv_inj in E. subst r0.
      apply hull_point; [|exact Hr]. apply xm_is_matrix in HO3. exact HO3.
    - destruct (is_true (pd_show d)) eqn:Es.
      + apply show_ok in H; [|exact Es]. destruct H as (c' & x & f & _ & -> & -> & _). exact HC.
      + destruct HS as (_ & Ei & _). assert (Hi : length i = k) by (subst i; exact HO1).
        destruct (nav_fin e k Hk d s s' q' c i n HO HL HF Hi Es Hv An H) as (cu & r & a & F1 & F2 & F3 & F4).
        destruct (nav_closest e k Hk HR d s s' q' cu r a HLP HO HL Es H F1 F2 F3 F4) as (_ & ideal & nadir & pts & extra & eqs & z & Eid & End & _ & Eps & Eh & Ex & _ & _ & Ez & Hc).
        apply handle_ok in H; [|exact Es]. destruct H as (? & ? & ? & ? & z' & _ & _ & _ & _ & _ & -> & _). cbn in Ez. injection Ez as ->.
        intros v ptsr E Ep. cbn in E, Ep. injection E as E. apply xv_inj in E. subst v.
        destruct Ex as [->|(er & Er)]; [|destruct HAp as (eqs' & [A1 _ _ _ _]); congruence]. rewrite app_nil_r in Eps. subst pts. rewrite Ep in Eh.
        destruct Hc as ((C0 & C1 & C2) & _). apply (HX _ _ Eh); [|exact C0]. apply rvle_len in C1. rewrite Eid, xv_length in HO1. lia.
    - destruct (is_true (pd_sat d)) eqn:Es.
      + apply satisfied_ok in H; [|exact Es]. destruct H as (c' & x' & f' & _ & _ & -> & ->). exact HC.
      + apply continue_ok in H; [|cbn; rewrite Es; reflexivity]. destruct H as (x' & f' & eqs & lo & hi & c' & Ha & Hc & ->).
        destruct Ha as [D1 D2 D3 _ _ _ _ _ _ _ _ (B1 & B2 & B3 & B4)]. destruct HL as [_ (pos & Ep) Hpo]. destruct (Hpo _ _ D1) as (fr & ->).
        intros v pts E Epts. rewrite B3 in E. rewrite D3, Ep, xm_snoc in Epts. apply xm_inj in Epts. subst pts.
        rewrite Ep in HO3. apply hull_snoc; [|apply xm_is_matrix in HO3; exact HO3|exact (HC _ _ E Ep)].
        specialize (HO5 _ _ D1). rewrite xv_length in HO5. exact HO5.
    - cbn in H. injection H as <- <-. exact HC.
  Qed.
  Lemma run_in {G} (g : G -> _) g0 (A : pn_request XR -> pn_dict XR -> Prop) s l h : (exists eqs, approx_of e k s0 (ps_pos s0) eqs) ->
    (forall q d, A q d -> pn_answers k q d /\ pn_prefers q d) -> pn_run e g g0 A s0 s l h -> cur_in s.
  Proof.
    intros H0 HA H. induction H as [|s q qs h d s' q' H IH Hv Ha Hi].
    - destruct HN0 as (E1 & _). intros v pts E. rewrite E1 in E. discriminate.
    - pose proof (run_fin e k s0 Hk HLP HH HP HR HE HD HO0 HL0 HN0 g g0 A s (q :: qs) h (fun q d H => proj1 (HA q d H)) H) as (I1 & I2 & I3).
      eapply step_in; eauto.
      + eapply (run_shown XR_ord); eassumption.
      + eapply run_hull; eassumption.
      + apply HA; exact Ha.
      + apply HA; exact Ha.
  Qed.
End Progress.

(** ** The result of a navigation call *)
Lemma handle_snd {N : NumOps} (e : pn_env N) d s : is_true (pd_show d) = false ->
  snd (pn_handle e d s) =
  (do a <- pn_step_of d (ps_speed s); do c <- attr TypeErr (ps_cur s); do q <- pn_ref_of d s c; do dir <- pn_direction c q;
   do z <- pn_solve e c (ps_ideal s) (ps_nadir s) dir a (ps_A s) (ps_b s); Ok (PReq (CVec z) (ps_ideal s) (ps_nadir s))).
Proof.
  intros Hs. unfold pn_handle. rewrite Hs. unfold pn_step_of, pn_ref_of, sbind, lift, sget, smod, sret, sraise, pn_issue.
  destruct (pd_speed d) as [v|].
  - destruct (pn_speed_of v) as [a0|x]; [|reflexivity]. cbn [rbind attr p_speed ps_speed ps_cur]. destruct (ps_cur s) as [c|]; [|reflexivity]. cbn [rbind attr].
    destruct (pd_ref d) as [[q| |]|]; try reflexivity.
    + cbn [rbind p_speed p_ref ps_ref attr]. destruct (pn_direction c q) as [dir|]; [|reflexivity]. cbn [rbind p_speed p_ref ps_ideal ps_nadir ps_A ps_b].
      match goal with |- context [pn_solve ?a ?b ?c ?d ?e ?f ?g ?h] => destruct (pn_solve a b c d e f g h) end; reflexivity.
    + destruct (pd_class d) as [l|].
      * cbn [ps_ideal ps_nadir p_speed]. destruct (pn_class_ref (ps_ideal s) (ps_nadir s) c l) as [q|]; [|reflexivity].
        cbn [rbind p_speed p_ref ps_ref attr]. destruct (pn_direction c q) as [dir|]; [|reflexivity]. cbn [rbind p_speed p_ref ps_ideal ps_nadir ps_A ps_b].
        match goal with |- context [pn_solve ?a ?b ?c ?d ?e ?f ?g ?h] => destruct (pn_solve a b c d e f g h) end; reflexivity.
      * cbn [rbind p_speed p_ref ps_ref attr]. destruct (ps_ref s) as [q|]; [|reflexivity]. cbn [attr rbind]. destruct (pn_direction c q) as [dir|]; [|reflexivity]. cbn [rbind p_speed p_ref ps_ideal ps_nadir ps_A ps_b].
        match goal with |- context [pn_solve ?a ?b ?c ?d ?e ?f ?g ?h] => destruct (pn_solve a b c d e f g h) end; reflexivity.
  - destruct (ps_speed s) as [a0|]; [|reflexivity]. cbn [rbind attr p_speed ps_speed ps_cur]. destruct (ps_cur s) as [c|]; [|reflexivity]. cbn [rbind attr].
    destruct (pd_ref d) as [[q| |]|]; try reflexivity.
    + cbn [rbind p_speed p_ref ps_ref attr]. destruct (pn_direction c q) as [dir|]; [|reflexivity]. cbn [rbind p_speed p_ref ps_ideal ps_nadir ps_A ps_b].
      match goal with |- context [pn_solve ?a ?b ?c ?d ?e ?f ?g ?h] => destruct (pn_solve a b c d e f g h) end; reflexivity.
    + destruct (pd_class d) as [l|].
      * cbn [ps_ideal ps_nadir p_speed]. destruct (pn_class_ref (ps_ideal s) (ps_nadir s) c l) as [q|]; [|reflexivity].
        cbn [rbind p_speed p_ref ps_ref attr]. destruct (pn_direction c q) as [dir|]; [|reflexivity]. cbn [rbind p_speed p_ref ps_ideal ps_nadir ps_A ps_b].
        match goal with |- context [pn_solve ?a ?b ?c ?d ?e ?f ?g ?h] => destruct (pn_solve a b c d e f g h) end; reflexivity.
      * cbn [rbind p_speed p_ref ps_ref attr]. destruct (ps_ref s) as [q|]; [|reflexivity]. cbn [attr rbind]. destruct (pn_direction c q) as [dir|]; [|reflexivity]. cbn [rbind p_speed p_ref ps_ideal ps_nadir ps_A ps_b].
        match goal with |- context [pn_solve ?a ?b ?c ?d ?e ?f ?g ?h] => destruct (pn_solve a b c d e f g h) end; reflexivity.
Qed.
