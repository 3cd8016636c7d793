(** * The achievement function on finite exact vectors. *)
From Coq Require Import ZArith List Bool Lia Reals Lra.
From Verif Require Import Num NumXR Py Np Spec NpFacts XRFacts MAsf.
Import ListNotations.
Local Open Scope R_scope.

Fixpoint rlsum (l : list R) : R := match l with [] => 0 | x :: l' => x + rlsum l' end.
Lemma fold_plus l acc : fold_left Rplus l acc = acc + rlsum l.
Proof. revert acc; induction l as [|x l IH]; intros acc; cbn; [lra|]. rewrite IH. lra. Qed.
Definition rlmax (l : list R) : R := match l with [] => 0 | x :: l' => fold_left Rmax l' x end.

Lemma zip_xr (f : XR -> XR -> XR) (g : R -> R -> R) a b :
  (forall x y, f (Fin x) (Fin y) = Fin (g x y)) -> zipw f (xv a) (xv b) = xv (zipw g a b).
Proof. intros H. revert b. induction a as [|x a IH]; intros [|y b]; cbn; auto. f_equal; auto. Qed.
Lemma zipdiv_xr a b : Forall (fun y => y <> 0) b -> zipw (@ndiv XR) (xv a) (xv b) = xv (zipw Rdiv a b).
Proof.
  revert b. induction a as [|x a IH]; intros [|y b] H; try reflexivity. inversion H; subst.
  change (@ndiv XR (Fin x) (Fin y) :: zipw (@ndiv XR) (xv a) (xv b) = Fin (x / y) :: xv (zipw Rdiv a b)). f_equal; [|auto]. apply xdiv_fin. auto.
Qed.
Lemma nmax_xr a b : @nmaximum XR (Fin a) (Fin b) = Fin (Rmax a b).
Proof.
  unfold nmaximum. rewrite xisnan_fin, orb_false_r. destruct (@nleb XR (Fin b) (Fin a)) eqn:E.
  - apply xleb_fin in E. rewrite Rmax_left; auto.
  - apply xleb_fin_false in E. rewrite Rmax_right; auto. lra.
Qed.
Lemma npmax_xr l : l <> [] -> npmax (xv l : list XR) = Ok (Fin (rlmax l) : XR).
Proof.
  destruct l as [|x l]; [congruence|]. intros _. cbn [xv map npmax]. f_equal. cbn [rlmax]. revert x. induction l as [|y l IH]; intros x; cbn [map fold_left]; auto.
  rewrite nmax_xr. apply IH.
Qed.
Lemma npmin_xr_ex l : l <> [] -> exists m, npmin (xv l : list XR) = Ok (Fin m : XR).
Proof.
  destruct l as [|x l]; [congruence|]. intros _. cbn [xv map npmin]. revert x. induction l as [|y l IH]; intros x; cbn [map fold_left]; [eauto|].
  unfold nminimum at 2. destruct (@nleb XR (Fin x) (Fin y) || @nisnan XR (Fin x)); apply IH.
Qed.

(** The value as a real number. *)
Definition rasf (rho : R) (w nd ut f q : list R) : R :=
  rlmax (zipw Rmult w (rsub f q)) + rho * rlsum (zipw Rdiv (rsub f q) (rsub nd ut)).
Lemma rsub_len a b : length a = length b -> length (rsub a b) = length a.
Proof. intros H. unfold rsub. rewrite zipw_length. lia. Qed.
Lemma rp_asf_xr rho w nd ut f q : (0 < length f)%nat -> length q = length f -> length w = length f -> length nd = length f -> length ut = length f ->
  Forall (fun y => y <> 0) (rsub nd ut) ->
  rp_asf (N:=XR) (Fin rho) (xv w) (xv nd) (xv ut) (xv f) (xv q) = Ok (Fin (rasf rho w nd ut f q) : XR).
Proof.
  intros Hp Hq Hw Hn Hu HZ. unfold rp_asf.
  rewrite bsub_xr by auto. cbn [rbind]. rewrite bcast2_eq by (rewrite !xv_length, rsub_len; congruence).
  rewrite (zip_xr _ Rmult) by reflexivity. cbn [rbind].
  rewrite npmax_xr. 2:{ intros E. assert (G : length (zipw Rmult w (rsub f q)) = length f) by (rewrite zipw_length, rsub_len; lia). rewrite E in G. cbn in G. lia. }
  cbn [rbind]. rewrite bsub_xr by congruence. cbn [rbind]. rewrite bcast2_eq by (rewrite !xv_length, !rsub_len; congruence).
  rewrite zipdiv_xr by auto. cbn [rbind]. unfold vsum. change (@nofZ XR 0) with (Fin 0 : XR). rewrite vsum_xr, fold_plus, Rplus_0_l. reflexivity.
Qed.

Lemma rlmax_mono a b : rvle a b -> rlmax a <= rlmax b.
Proof.
  intros H. destruct H as [|x y a b Hxy H]; [cbn; lra|]. cbn [rlmax]. revert x y Hxy. induction H as [|u v a b Huv H IH]; intros x y Hxy; cbn [fold_left]; auto.
  apply IH. unfold Rmax. destruct (Rle_dec x u), (Rle_dec y v); lra.
Qed.
Lemma zmul_mono w g f q : Forall (fun x => 0 <= x) w -> rvle g f -> rvle (zipw Rmult w (rsub g q)) (zipw Rmult w (rsub f q)).
Proof.
  intros Hw H. unfold rsub. revert w Hw q. induction H as [|x y g f Hxy H IH]; intros [|u w] Hw [|z q]; cbn; try constructor.
  - inversion Hw; subst. apply Rmult_le_compat_l; lra.
  - inversion Hw; subst. apply IH; auto.
Qed.
Lemma zdiv_mono d g f q : Forall (fun x => 0 < x) d -> rvle g f -> length d = length f -> length q = length f ->
  rlsum (zipw Rdiv (rsub g q) d) <= rlsum (zipw Rdiv (rsub f q) d) /\
  (~ rvle f g -> rlsum (zipw Rdiv (rsub g q) d) < rlsum (zipw Rdiv (rsub f q) d)).
Proof.
  intros Hd H. unfold rsub. revert d Hd q. induction H as [|x y g f Hxy H IH]; intros [|u d] Hd [|z q] L1 L2; cbn in *; try discriminate.
  - split; [lra|]. intros G. exfalso. apply G. constructor.
  - inversion Hd; subst. destruct (IH d H3 q ltac:(lia) ltac:(lia)) as [I1 I2].
    assert (E : (x - z) / u <= (y - z) / u) by (unfold Rdiv; apply Rmult_le_compat_r; [left; apply Rinv_0_lt_compat; auto|lra]).
    split; [lra|]. intros G. destruct (Rle_dec y x) as [Hyx|Hyx].
    + apply Rplus_le_lt_compat; auto. apply I2. intros G'. apply G. constructor; auto.
    + apply Rplus_lt_le_compat; auto. unfold Rdiv. apply Rmult_lt_compat_r; [apply Rinv_0_lt_compat; auto|lra].
Qed.
(** With non-negative weights, a dominating row has a smaller value. *)
Lemma rasf_mono rho w nd ut g f q : 0 < rho -> Forall (fun x => 0 <= x) w -> Forall (fun x => 0 < x) (rsub nd ut) ->
  length nd = length f -> length ut = length f -> length q = length f -> rvle g f -> ~ rvle f g ->
  rasf rho w nd ut g q < rasf rho w nd ut f q.
Proof.
  intros Hr Hw Hd Ln Lu Lq H G. unfold rasf. pose proof (rlmax_mono _ _ (zmul_mono w g f q Hw H)) as M.
  destruct (zdiv_mono (rsub nd ut) g f q Hd H ltac:(rewrite rsub_len; congruence) Lq) as [_ D]. specialize (D G).
  apply (Rmult_lt_compat_l rho) in D; auto. lra.
Qed.
Lemma dominates_xr g f : @dominates XR (xv g) (xv f) <-> rvle g f /\ ~ rvle f g.
Proof. unfold dominates. rewrite !xvle_iff. tauto. Qed.

(** The row with the least value is not dominated by any row. *)
Lemma least_not_dominated rho w nd ut q objs f v :
  0 < rho -> Forall (fun x => 0 <= x) w -> Forall (fun x => 0 < x) (rsub nd ut) ->
  (0 < length nd)%nat -> length ut = length nd -> length q = length nd -> length w = length nd ->
  Forall (fun r => length r = length nd) objs -> In f objs ->
  rp_asf (N:=XR) (Fin rho) (xv w) (xv nd) (xv ut) (xv f) (xv q) = Ok v ->
  (forall g v', In g (xm objs) -> rp_asf (N:=XR) (Fin rho) (xv w) (xv nd) (xv ut) g (xv q) = Ok v' -> nisnan v' = false -> nleb v v' = true) ->
  forall g, In g (xm objs) -> ~ dominates g (xv f).
Proof.
  intros Hr Hw Hd Hk Lu Lq Lw HM Hf Hv Hmin g Hg D. apply in_map_iff in Hg as (g' & <- & Hg). apply dominates_xr in D as [D1 D2].
  rewrite Forall_forall in HM. pose proof (HM _ Hf) as Lf. pose proof (HM _ Hg) as Lg.
  assert (HZ : Forall (fun y => y <> 0) (rsub nd ut)) by (eapply Forall_impl; [|exact Hd]; cbn; intros; lra).
  rewrite rp_asf_xr in Hv by (auto; lia). injection Hv as <-.
  assert (G : @nleb XR (Fin (rasf rho w nd ut f q)) (Fin (rasf rho w nd ut g' q)) = true).
  { eapply (Hmin (xv g')); [apply in_map; auto|apply rp_asf_xr; auto; lia|apply xisnan_fin]. }
  apply xleb_fin in G. pose proof (rasf_mono rho w nd ut g' f q Hr Hw Hd ltac:(congruence) ltac:(congruence) ltac:(congruence) D1 D2). lra.
Qed.
