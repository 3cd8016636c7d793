(** * Pareto Navigator: real states; what a navigation step computes. *)
From Coq Require Import ZArith List Bool Lia Reals Lra.
From Verif Require Import Num NumXR Py Np Spec NpFacts XRFacts PAsf MRpm MParetoNav SParetoNav PParetoNav PParetoNav2 PParetoNav3.
Import ListNotations.
Open Scope R_scope.

Record pn_rl (s : pn_state XR) : Prop := {
  rl_box : exists ideal nadir, ps_ideal s = xv ideal /\ ps_nadir s = xv nadir /\ Forall2 Rlt ideal nadir;
  rl_pos : exists r, ps_pos s = xm r;
  rl_po : forall x f, ps_po s = Some (x, f) -> exists r, f = xv r }.

Lemma nmin_xr a b : @nminimum XR (Fin a) (Fin b) = Fin (Rmin a b).
Proof.
  unfold nminimum. destruct (@nleb XR (Fin a) (Fin b)) eqn:E.
  - cbn [orb]. apply xleb_fin in E. rewrite Rmin_left by exact E. reflexivity.
  - rewrite xisnan_fin. cbn [orb]. apply xleb_fin_false in E. rewrite Rmin_right by lra. reflexivity.
Qed.
Lemma zmax_xr a b : zipw (@nmaximum XR) (xv a) (xv b) = xv (zipw Rmax a b).
Proof. revert b. induction a as [|x a IH]; intros [|y b]; try reflexivity. cbn [xv map zipw]. rewrite nmax_xr. apply (f_equal2 cons); [reflexivity|apply IH]. Qed.
Lemma zmin_xr a b : zipw (@nminimum XR) (xv a) (xv b) = xv (zipw Rmin a b).
Proof. revert b. induction a as [|x a IH]; intros [|y b]; try reflexivity. cbn [xv map zipw]. rewrite nmin_xr. apply (f_equal2 cons); [reflexivity|apply IH]. Qed.
Lemma max0_xr m v : np_max0 (xm m : list (list XR)) = Ok v -> exists r, v = xv r.
Proof.
  destruct m as [|r m]; [discriminate|]. intros E. injection E as <-. revert r. induction m as [|a m IH]; intros r; [eexists; reflexivity|].
  cbn [xm map fold_left]. rewrite zmax_xr. apply IH.
Qed.
Lemma min0_xr m v : np_min0 (xm m : list (list XR)) = Ok v -> exists r, v = xv r.
Proof.
  destruct m as [|r m]; [discriminate|]. intros E. injection E as <-. revert r. induction m as [|a m IH]; intros r; [eexists; reflexivity|].
  cbn [xm map fold_left]. rewrite zmin_xr. apply IH.
Qed.
Lemma rmin_rmax_lt lo hi i n : Forall2 Rlt i n -> length lo = length i -> length hi = length i -> Forall2 Rlt (zipw Rmin lo i) (zipw Rmax hi n).
Proof.
  intros H. revert lo hi. induction H as [|x y i n Hxy H IH]; intros [|l lo] [|h hi] E1 E2; try discriminate; cbn; constructor.
  - pose proof (Rmin_r l x). pose proof (Rmax_r h y). lra.
  - apply IH; cbn in *; lia.
Qed.

Section Real.
  Context (e : pn_env XR) (k : nat) (Hk : (2 <= k)%nat)
    (HH : forall pts eqs, pe_hull e pts = Ok eqs -> is_matrix (S k) eqs)
    (HP : match pe_prob e with PMO evaluate _ => forall x, length (evaluate x) = k | PDisc objs decs => objs <> [] /\ is_matrix k objs end)
    (HR : forall pts eqs, pe_hull e pts = Ok eqs -> exists r, eqs = xm r)
    (HE : match pe_prob e with PMO evaluate _ => forall x, exists r, evaluate x = xv r | PDisc objs _ => exists r, objs = xm r end).

  Lemma rl_keep s s' : pn_rl s -> ps_ideal s' = ps_ideal s -> ps_nadir s' = ps_nadir s -> ps_pos s' = ps_pos s ->
    (forall x f, ps_po s' = Some (x, f) -> exists r, f = xv r) -> pn_rl s'.
  Proof. intros [A B C] E1 E2 E3 E4. constructor; rewrite ?E1, ?E2, ?E3; auto. Qed.
  Lemma xm_snoc m f : xm m ++ [xv f] = xm (m ++ [f]).
  Proof. unfold xm. rewrite map_app. reflexivity. Qed.
  Lemma added_rl s s' f x eqs lo hi : pn_ok e k s -> pn_rl s -> added e s s' f x eqs lo hi -> pn_rl s'.
  Proof.
    intros HO [(ideal & nadir & Ei & En & Hlt) (pos & Ep) Hpo] [A1 A2 A3 A4 A5 A6 A7 A8 A9 A10 A11 A12].
    destruct (Hpo _ _ A1) as (fr & ->). pose proof HO as [H1 H2 H3 H4 H5 _].
    assert (Hm : is_matrix k (ps_pos s ++ [xv fr])) by (apply Forall_app; split; [exact H3|constructor; eauto]).
    rewrite Ep, xm_snoc in A5, A6. pose proof Hm as Hm'. rewrite Ep, xm_snoc in Hm'.
    assert (Lhi : length hi = k) by (eapply max0_len; eassumption). assert (Llo : length lo = k) by (eapply min0_len; eassumption).
    apply max0_xr in A5. destruct A5 as (rhi & ->). apply min0_xr in A6. destruct A6 as (rlo & ->).
    rewrite En in A7. rewrite zmax_xr in A7. rewrite Ei in A8. rewrite zmin_xr in A8. rewrite xv_length in *.
    constructor.
    - exists (zipw Rmin rlo ideal), (zipw Rmax rhi nadir). split; [exact A8|]. split; [exact A7|].
      rewrite Ei, xv_length in H1. apply rmin_rmax_lt; congruence.
    - exists (pos ++ [fr]). rewrite A3, Ep, xm_snoc. reflexivity.
    - destruct A12 as (_ & _ & _ & E). rewrite E. exact Hpo.
  Qed.
  Lemma iterate_rl q resp s s' out : pn_ok e k s -> pn_rl s -> pn_iterate e q resp s = (s', out) -> pn_rl s'.
  Proof.
    intros HO HL H. pose proof (rl_po _ HL) as Hpo. destruct q as [ideal nadir pos|cur ideal nadir|ap x f|ap x f]; cbn [pn_iterate] in H.
    - unfold sbind, lift in H. destruct resp as [d|]; cbn [attr] in H; [|injection H as <- _; exact HL].
      destruct out as [rq|er].
      + apply initial_ok in H. destruct H as (q & c & v & a & -> & _). eapply rl_keep; try exact HL; auto.
      + apply initial_raise in H. destruct H as (q & c & a & ->). eapply rl_keep; try exact HL; auto.
    - set (d := match resp with Some d => d | None => pn_empty end) in *. destruct out as [rq|er].
      + destruct (is_true (pd_show d)) eqn:Es.
        * apply show_ok in H; [|exact Es]. destruct H as (c & x & f & _ & -> & _ & Hp).
          eapply rl_keep; try exact HL; auto. cbn. intros x' f' E. injection E as <- <-.
          destruct (pe_prob e) as [evaluate minimize|objs decs]; [destruct Hp as (_ & ->); apply HE|].
          destruct Hp as (i & _ & Ei & _). destruct HE as (r & ->). rewrite xm_nth in Ei. destruct (nth_error r i); [|discriminate]. injection Ei as <-. eauto.
        * apply handle_ok in H; [|exact Es]. destruct H as (a & c & q & dir & z & _ & _ & _ & _ & _ & -> & _).
          eapply rl_keep; try exact HL; auto.
      + apply handle_raise in H. destruct H as (a & q & ->). eapply rl_keep; try exact HL; auto.
    - destruct (unsatisfied resp) eqn:Eu.
      + destruct out as [rq|er].
        * apply continue_ok in H; [|exact Eu]. destruct H as (x' & f' & eqs & lo & hi & c & Ha & _). eapply added_rl; eassumption.
        * eapply continue_raise in H; [|exact Hk|exact HH|exact HO|exact Eu].
          destruct H as [[-> _]|(x' & f' & Epo & [[-> Hh]|[_ (eqs & lo & hi & Ha)]])]; [exact HL| |eapply added_rl; eassumption].
          destruct HL as [L1 (pos & L2) L3]. destruct (L3 _ _ Epo) as (fr & ->). constructor; cbn; auto. exists (pos ++ [fr]). rewrite L2, xm_snoc. reflexivity.
      + destruct resp as [d|]; [|discriminate]. cbn in Eu. destruct (is_true (pd_sat d)) eqn:Es; [|discriminate].
        assert (E : s' = s).
        { unfold pn_handle_solution, sbind, sget in H. rewrite Es in H. unfold lift, sret in H.
          destruct (ps_po s) as [[? ?]|]; [|cbn in H; congruence]. cbn [attr] in H. destruct (ps_cur s); cbn in H; congruence. }
        subst. exact HL.
    - cbn in H. injection H as <- _. exact HL.
  Qed.
  Lemma hist_rl h h' : pn_ok e k (fst h) -> pn_rl (fst h) -> pn_hist e h h' -> pn_ok e k (fst h') /\ pn_rl (fst h').
  Proof.
    intros HO HL H. induction H as [h|h h1 h2 H IH Hs]; [auto|]. destruct IH as (I1 & I2); auto.
    inversion Hs; subst; cbn [fst] in *; [auto|]. split; [eapply iterate_ok_inv; eauto|eapply iterate_rl; eauto].
  Qed.

  (** The arrays given to linprog in a real state. *)
  Lemma real_arrays s ideal nadir : pn_ok e k s -> ps_ideal s = xv ideal -> ps_nadir s = xv nadir -> Forall2 Rlt ideal nadir ->
    exists pts extra eqs, ps_pos s = pts ++ extra /\ pe_hull e pts = Ok (xm eqs) /\ (extra = [] \/ exists er, pe_hull e (ps_pos s) = Raise er) /\
      Forall (fun r => length r = S k) eqs /\ ps_A s = xm (rlpA k ideal nadir eqs) /\ ps_b s = xv (rlpb eqs).
  Proof.
    intros [H1 H2 _ _ _ (pts & extra & eqs & Ep & [A1 A2 A3 A4 A5] & Ex)] Ei En Hlt.
    destruct (HR _ _ A1) as (r & ->). apply xm_is_matrix in A2. exists pts, extra, r.
    rewrite Ei, xv_length in H1. rewrite En, xv_length in H2.
    rewrite Ei, En, weights_xr in A3 by (auto; lia). assert (Ew : ps_w s = xv (map (fun r => 1 / r) (rsub nadir ideal))) by congruence. rewrite Ew in A4.
    apply (lppp_xr k) in A4; auto. rewrite split_b_xr in A5. auto 10.
  Qed.

  (** One navigation step. *)
  Lemma nav_closest d s s' rq c r a : lp_exact (pe_lp e) -> pn_ok e k s -> pn_rl s -> is_true (pd_show d) = false ->
    pn_handle e d s = (s', Ok rq) -> ps_cur s = Some (CVec (xv c)) -> ps_ref s' = Some (xv r) -> length r = k -> ps_speed s' = Some (Fin a : XR) ->
    length c = k /\ exists ideal nadir pts extra eqs z, ps_ideal s = xv ideal /\ ps_nadir s = xv nadir /\ Forall2 Rlt ideal nadir /\
      ps_pos s = pts ++ extra /\ pe_hull e pts = Ok (xm eqs) /\ (extra = [] \/ exists er, pe_hull e (ps_pos s) = Raise er) /\
      Forall (fun r => length r = S k) eqs /\
      rq = PReq (CVec (xv z)) (xv ideal) (xv nadir) /\ ps_cur s' = Some (CVec (xv z)) /\
      closest eqs ideal nadir (rcomb (1 - a) c a r) z.
  Proof.
    intros HLP HO HL Hs H Hc Hr Hl Ha. apply handle_ok in H; [|exact Hs].
    destruct H as (a' & c' & q & dir & z & E1 & E2 & E3 & E4 & E5 & -> & ->). cbn in Hr, Ha. injection Hr as ->. injection Ha as ->.
    rewrite Hc in E2. injection E2 as <-. destruct HL as [(ideal & nadir & Ei & En & Hlt) _ _].
    pose proof HO as [H1 H2 _ _ _ _]. rewrite Ei, xv_length in H1. rewrite En, xv_length in H2.
    destruct (real_arrays s ideal nadir HO Ei En Hlt) as (pts & extra & eqs & Ep & Eh & Ex & He & EA & Eb).
    rewrite Ei, En in *. destruct (solve_closest e k Hk HLP c r a ideal nadir eqs dir z _ _ H1 H2 Hl Hlt He EA Eb E4 E5) as (Hcl & zr & -> & HC).
    split; [exact Hcl|]. exists ideal, nadir, pts, extra, eqs, zr. cbn [p_cur ps_cur]. repeat (split; [assumption || reflexivity|]). exact HC.
  Qed.
End Real.

(** ** Consequences of [closest] *)
Lemma closest_weak k eqs ideal nadir q z : (0 < k)%nat -> length ideal = k -> length nadir = k -> length q = k -> Forall2 Rlt ideal nadir ->
  closest eqs ideal nadir q z -> forall z', approximation eqs ideal nadir z' -> ~ Forall2 Rlt z' z.
Proof.
  intros Hk Hi Hn Hq Hlt [HA HC] z' HA' Hz.
  assert (Lz : length z = k). { destruct HA as (_ & H & _). apply rvle_len in H. lia. }
  assert (Lz' : length z' = k). { destruct HA' as (_ & H & _). apply rvle_len in H. lia. }
  (* the largest deviation of z' *)
  assert (HM : exists t, deviation_le ideal nadir q z' t /\ exists i zi qi ni mi, nth_error z' i = Some zi /\ nth_error q i = Some qi /\ nth_error nadir i = Some ni /\
     nth_error ideal i = Some mi /\ (zi - qi) / (ni - mi) = t).
  { clear HA HC HA' Hz Lz. subst k. revert Hn Hq Lz' Hk. revert q z'. induction Hlt as [|m n ideal nadir Hmn Hlt IH]; intros q z' Hn Hq Lz' Hk; [cbn in Hk; lia|].
    destruct q as [|q0 q]; [discriminate|]. destruct z' as [|z0 z']; [discriminate|]. cbn in Hn, Hq, Lz'.
    destruct ideal as [|m1 ideal'].
    - exists ((z0 - q0) / (n - m)). split.
      + intros [|i] zi qi ni mi E1 E2 E3 E4; [cbn in *; injection E1 as <-; injection E2 as <-; injection E3 as <-; injection E4 as <-; lra|].
        cbn in E4. destruct i; discriminate.
      + exists 0%nat, z0, q0, n, m. repeat split.
    - destruct (IH q z') as (t & Ht & i & zi & qi & ni & mi & E1 & E2 & E3 & E4 & E5); try (cbn in *; lia).
      destruct (Rle_dec t ((z0 - q0) / (n - m))) as [Hle|Hle].
      + exists ((z0 - q0) / (n - m)). split.
        * intros [|j] zj qj nj mj F1 F2 F3 F4; [cbn in *; injection F1 as <-; injection F2 as <-; injection F3 as <-; injection F4 as <-; lra|].
          specialize (Ht j zj qj nj mj F1 F2 F3 F4). lra.
        * exists 0%nat, z0, q0, n, m. repeat split.
      + exists t. split.
        * intros [|j] zj qj nj mj F1 F2 F3 F4; [cbn in *; injection F1 as <-; injection F2 as <-; injection F3 as <-; injection F4 as <-; lra|].
          exact (Ht j zj qj nj mj F1 F2 F3 F4).
        * exists (S i), zi, qi, ni, mi. repeat split; assumption. }
  destruct HM as (t & Ht & i & zi' & qi & ni & mi & E1 & E2 & E3 & E4 & E5).
  specialize (HC z' t HA' Ht). destruct (Forall2_nth_l _ _ _ _ _ Hz E1) as (zi & Ez & Hlt').
  specialize (HC i zi qi ni mi Ez E2 E3 E4). destruct (Forall2_nth_l _ _ _ _ _ Hlt E4) as (n' & En' & Hmn). assert (n' = ni) by congruence. subst n'.
  rewrite <- E5 in HC. unfold Rdiv in HC. apply Rmult_le_reg_r in HC; [lra|]. apply Rinv_0_lt_compat. lra.
Qed.
Lemma closest_attains eqs ideal nadir q z z' : length ideal = length q -> length nadir = length q -> Forall2 Rlt ideal nadir ->
  closest eqs ideal nadir q z -> approximation eqs ideal nadir z' -> rvle z' q -> rvle z q.
Proof.
  intros Hi Hn Hlt [HA HC] HA' Hz. assert (Lz : length z = length q). { destruct HA as (_ & H & _). apply rvle_len in H. lia. }
  assert (HD : deviation_le ideal nadir q z' 0).
  { intros i zi qi ni mi E1 E2 E3 E4. pose proof (rvle_nth _ _ _ _ _ Hz E1 E2). destruct (Forall2_nth_l _ _ _ _ _ Hlt E4) as (n' & En' & Hmn). assert (n' = ni) by congruence. subst n'.
    apply (Rmult_le_reg_r (ni - mi)); [lra|]. unfold Rdiv. rewrite Rmult_assoc, Rinv_l by lra. lra. }
  specialize (HC z' 0 HA' HD). apply Forall2_from_nth; [exact Lz|]. intros i zi qi E1 E2.
  destruct (nth_ex nadir i) as (ni & E3); [rewrite Hn; eapply nth_lt; eassumption|]. destruct (nth_ex ideal i) as (mi & E4); [rewrite Hi; eapply nth_lt; eassumption|].
  specialize (HC i zi qi ni mi E1 E2 E3 E4). destruct (Forall2_nth_l _ _ _ _ _ Hlt E4) as (n' & En' & Hmn). assert (n' = ni) by congruence. subst n'.
  apply (Rmult_le_compat_r (ni - mi)) in HC; [|lra]. unfold Rdiv in HC. rewrite Rmult_assoc, Rinv_l in HC by lra. lra.
Qed.
