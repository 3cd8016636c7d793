(** * Arithmetic of the numpy layer on finite exact vectors. *)
From Coq Require Import ZArith List Bool Lia Reals Lra.
From Verif Require Import Num NumXR Py Np Spec NpFacts.
Import ListNotations.
Local Open Scope R_scope.

Lemma Fin_inj a b : Fin a = Fin b -> a = b.
Proof. intros H; inversion H; auto. Qed.
Lemma xv_inj a b : xv a = xv b -> a = b.
Proof.
  revert b. induction a as [|x a IH]; intros [|y b]; simpl; intros H; try discriminate; auto.
  inversion H; subst. f_equal. auto.
Qed.
Lemma xm_inj a b : xm a = xm b -> a = b.
Proof.
  revert b. induction a as [|x a IH]; intros [|y b]; simpl; intros H; try discriminate; auto.
  injection H as H1 H2. apply xv_inj in H1. subst. f_equal. auto.
Qed.
Lemma xv_length v : length (xv v) = length v.
Proof. apply map_length. Qed.
Lemma xm_length m : length (xm m) = length m.
Proof. apply map_length. Qed.
Lemma xv_nth v i : nth_error (xv v) i = option_map Fin (nth_error v i).
Proof. apply nth_error_map. Qed.
Lemma xm_nth m i : nth_error (xm m) i = option_map xv (nth_error m i).
Proof. apply nth_error_map. Qed.
Lemma xv_nan_free v : @nan_free XR (xv v).
Proof. apply Forall_forall. intros x H. apply in_map_iff in H. destruct H as [r [H _]]. subst. apply xisnan_fin. Qed.
Lemma xm_nan_free m : @nan_free_m XR (xm m).
Proof. apply Forall_forall. intros x H. apply in_map_iff in H. destruct H as [r [H _]]. subst. apply xv_nan_free. Qed.
Lemma xm_is_matrix k m : @is_matrix XR k (xm m) <-> Forall (fun r => length r = k) m.
Proof.
  unfold is_matrix, xm. rewrite Forall_map. split; apply Forall_impl; intros a; rewrite xv_length; auto.
Qed.
Lemma xvle_iff a b : @vle XR (xv a) (xv b) <-> rvle a b.
Proof.
  revert b. induction a as [|x a IH]; intros [|y b]; split; intros H; try (inversion H; fail); try constructor;
    inversion H; subst; auto.
  - apply xleb_fin; auto.
  - apply IH; auto.
  - apply xleb_fin; auto.
  - apply IH; auto.
Qed.

Lemma rcomb_length c1 a c2 b : length a = length b -> length (rcomb c1 a c2 b) = length a.
Proof. revert b; induction a as [|x a IH]; intros [|y b]; simpl; intros; auto. Qed.
Lemma rcomb_nth c1 a c2 b i x y :
  nth_error a i = Some x -> nth_error b i = Some y ->
  nth_error (rcomb c1 a c2 b) i = Some (c1 * x + c2 * y).
Proof.
  revert b i. induction a as [|u a IH]; intros b i; destruct i; simpl; try discriminate; destruct b; simpl; try discriminate.
  - intros H1 H2; inversion H1; inversion H2; subst; auto.
  - apply IH.
Qed.
Lemma rcomb_1_0 a b : length a = length b -> rcomb 0 a 1 b = b.
Proof.
  revert b; induction a as [|x a IH]; intros [|y b]; simpl; intros H; try discriminate; auto.
  f_equal; [lra|auto].
Qed.

Lemma comb_xr c1 p c2 z : length p = length z ->
  bcast2 (@nadd XR) (vscale (Fin c1 : XR) (xv p)) (vscale (Fin c2 : XR) (xv z)) = Ok (xv (rcomb c1 p c2 z)).
Proof.
  intros H. rewrite bcast2_eq by (unfold vscale; rewrite !map_length, !xv_length; auto).
  f_equal. revert z H. induction p as [|x p IH]; intros [|y z]; simpl; intros H; try discriminate; auto.
  f_equal. apply IH. lia.
Qed.

(** Coefficients (n-1)/n and 1/n. *)
Lemma coef_xr a n : n <> 0%Z -> @ndiv XR (nofZ a) (nofZ n) = (Fin (IZR a / IZR n) : XR).
Proof. intros H. simpl. apply xdiv_fin. apply not_0_IZR. auto. Qed.

Lemma rcomb_between c a b lo hi :
  0 <= c <= 1 -> length a = length b ->
  rvle lo a -> rvle lo b -> rvle a hi -> rvle b hi ->
  rvle lo (rcomb (1 - c) a c b) /\ rvle (rcomb (1 - c) a c b) hi.
Proof.
  intros Hc. revert b lo hi. induction a as [|x a IH]; intros [|y b] lo hi HL H1 H2 H3 H4; try discriminate.
  - inversion H1; inversion H3; subst. split; constructor.
  - inversion H1 as [|l ? lo' ? A1 A2]; subst. inversion H3 as [|? h ? hi' C1 C2]; subst.
    inversion H2 as [|? ? ? ? B1 B2]; subst. inversion H4 as [|? ? ? ? D1 D2]; subst.
    simpl in HL. destruct (IH b lo' hi') as [I1 I2]; auto.
    simpl. split; constructor; auto; nra.
Qed.

Lemma rvle_refl a : rvle a a.
Proof. induction a; constructor; auto. lra. Qed.
Lemma rvle_trans a b c : rvle a b -> rvle b c -> rvle a c.
Proof.
  intros H. revert c. induction H; intros c H2; inversion H2; subst; constructor; auto.
  - eapply Rle_trans; eauto.
  - apply IHForall2; auto.
Qed.
Lemma rvle_len a b : rvle a b -> length a = length b.
Proof. apply Forall2_len. Qed.
Lemma rvle_antisym a b : rvle a b -> rvle b a -> a = b.
Proof.
  intros H. induction H; intros H2; inversion H2; subst; auto. f_equal; auto. lra.
Qed.
Lemma rvle_nth a b i x y : rvle a b -> nth_error a i = Some x -> nth_error b i = Some y -> x <= y.
Proof.
  intros H Hx Hy. destruct (Forall2_nth_l _ _ _ _ _ H Hx) as [y' [Hy' HP]]. congruence.
Qed.

(** Moving a fraction 1/n towards z <= p stays between z and p. *)
Lemma rcomb_step_between n p z : (1 <= n)%Z -> rvle z p ->
  rvle z (rcomb (IZR (n-1) / IZR n) p (1 / IZR n) z) /\ rvle (rcomb (IZR (n-1) / IZR n) p (1 / IZR n) z) p.
Proof.
  intros Hn Hz.
  assert (Hn' : 1 <= IZR n) by (apply IZR_le; auto).
  replace (IZR (n-1) / IZR n) with (1 - 1 / IZR n) by (rewrite minus_IZR; field; lra).
  apply rcomb_between; auto using rvle_refl.
  - split.
    + apply Rmult_le_pos; [lra|]. left. apply Rinv_0_lt_compat. lra.
    + apply Rmult_le_reg_r with (IZR n); [lra|]. field_simplify; lra.
  - symmetry. apply rvle_len. auto.
Qed.

(** Norms *)
Lemma rsqdist_nonneg a b : 0 <= rsqdist a b.
Proof. revert b; induction a as [|x a IH]; intros [|y b]; simpl; try lra. specialize (IH b). pose proof (Rle_0_sqr (x - y)) as Hs. unfold Rsqr in Hs. lra. Qed.
Lemma rsqdist_0 a b : length a = length b -> (rsqdist a b = 0 <-> a = b).
Proof.
  revert b; induction a as [|x a IH]; intros [|y b]; simpl; intros HL; try discriminate; [tauto|].
  pose proof (rsqdist_nonneg a b). split.
  - intros H0. pose proof (Rle_0_sqr (x - y)) as Hs. unfold Rsqr in Hs.
    assert (rsqdist a b = 0) by lra. assert (E : (x - y) * (x - y) = 0) by lra.
    apply Rmult_integral in E. assert (x = y) by (destruct E; lra).
    subst. f_equal. apply IH; auto.
  - intros H0. inversion H0; subst. rewrite (proj2 (IH b ltac:(auto))); auto. ring.
Qed.
Lemma rdist_nonneg a b : 0 <= rdist a b.
Proof. apply sqrt_pos. Qed.
Lemma rdist_0 a b : length a = length b -> (rdist a b = 0 <-> a = b).
Proof.
  intros HL. unfold rdist. split; intros H.
  - apply (rsqdist_0 a b HL). apply sqrt_eq_0; auto. apply rsqdist_nonneg.
  - rewrite (proj2 (rsqdist_0 a b HL) H). apply sqrt_0.
Qed.

Fixpoint rsumsq (a : list R) : R := match a with [] => 0 | x :: a' => x * x + rsumsq a' end.
Lemma rsumsq_nonneg a : 0 <= rsumsq a.
Proof. induction a as [|x a IH]; simpl; [lra|]. pose proof (Rle_0_sqr x) as Hs. unfold Rsqr in Hs. lra. Qed.
Lemma vsum_xr (v : list R) : forall acc, fold_left (@nadd XR) (xv v) (Fin acc : XR) = (Fin (fold_left Rplus v acc) : XR).
Proof. induction v as [|x v IH]; intros acc; simpl; [reflexivity|apply IH]. Qed.
Lemma fold_sq (v : list R) acc : fold_left Rplus (map (fun x => x * x) v) acc = acc + rsumsq v.
Proof. revert acc; induction v as [|x v IH]; intros acc; simpl; [lra|]. rewrite IH. lra. Qed.
Lemma vnorm_xr (v : list R) : vnorm (xv v : list XR) = (Fin (sqrt (rsumsq v)) : XR).
Proof.
  unfold vnorm, vsum.
  replace (map (fun x : XR => nmul x x) (xv v)) with (xv (map (fun x => x * x) v))
    by (unfold xv; rewrite !map_map; reflexivity).
  change (@nofZ XR 0) with (Fin 0 : XR). rewrite vsum_xr, fold_sq, Rplus_0_l.
  apply xsqrt_fin. apply rsumsq_nonneg.
Qed.
Definition rsub (a b : list R) : list R := zipw Rminus a b.
Lemma vsub_xr a b : zipw (@nsub XR) (xv a) (xv b) = xv (rsub a b).
Proof. revert b; induction a as [|x a IH]; intros [|y b]; simpl; auto. unfold rsub in *. simpl. f_equal. apply IH. Qed.
Lemma bsub_xr a b : length a = length b -> bcast2 (@nsub XR) (xv a) (xv b) = Ok (xv (rsub a b)).
Proof. intros H. rewrite bcast2_eq by (rewrite !xv_length; auto). rewrite vsub_xr. reflexivity. Qed.
Lemma rsumsq_rsub a b : rsumsq (rsub a b) = rsqdist a b.
Proof. unfold rsub. revert b; induction a as [|x a IH]; intros [|y b]; simpl; auto. rewrite IH. auto. Qed.
Lemma vnorm_sub a b : vnorm (xv (rsub a b) : list XR) = (Fin (rdist a b) : XR).
Proof. rewrite vnorm_xr, rsumsq_rsub. reflexivity. Qed.
Lemma vnorm_abs_sub a b : vnorm (map (@nabs XR) (xv (rsub a b))) = (Fin (rdist a b) : XR).
Proof.
  replace (map (@nabs XR) (xv (rsub a b))) with (xv (map Rabs (rsub a b)))
    by (unfold xv; rewrite !map_map; reflexivity).
  rewrite vnorm_xr. unfold rdist. rewrite <- rsumsq_rsub. do 2 f_equal.
  induction (rsub a b) as [|x v IH]; simpl; auto. rewrite IH.
  f_equal. rewrite <- Rabs_mult. apply Rabs_right. nra.
Qed.

(** || (1-t) nadir + t z - nadir || = t ||z - nadir|| *)
Lemma rsqdist_comb t nd z : length nd = length z ->
  rsqdist (rcomb (1 - t) nd t z) nd = t * t * rsqdist z nd.
Proof.
  revert z; induction nd as [|x nd IH]; intros [|y z]; simpl; intros H; try discriminate; [ring|].
  rewrite IH by auto. ring.
Qed.
Lemma rdist_comb t nd z : 0 <= t -> length nd = length z ->
  rdist (rcomb (1 - t) nd t z) nd = t * rdist z nd.
Proof.
  intros Ht H. unfold rdist. rewrite rsqdist_comb by auto.
  rewrite sqrt_mult_alt by nra. rewrite sqrt_square by auto. reflexivity.
Qed.
