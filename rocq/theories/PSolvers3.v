(** * Payoff tables with a correct solver; the achievement function; the grid. *)
From Coq Require Import String.
From Coq Require Import ZArith List Bool Lia Reals Lra Sorted.
From Verif Require Import Num NumXR NumF64 Py Np Spec NpFacts XRFacts MNavigator PNavigator6 MRpm MParetoNav MSolvers SSolvers PSolvers PSolvers2.
Import ListNotations.

Section Min.
  Context {N : NumOps} (L : OrdLaws N) (S : sel_law N).
  Notation vec := (list N).
  Lemma eqb_le (a b : N) : neqb a b = true -> nleb a b = true /\ nleb b a = true.
  Proof. rewrite (ol_eqb N L), andb_true_iff. auto. Qed.
  Lemma row_min (e : sv_env N) eval n bounds constr method g i x : honest e ->
    (forall y, feasible bounds constr y -> length (eval y) = n /\ Forall nfinite (eval y)) ->
    row_answer e eval n bounds constr method g i x true -> (i < n)%nat ->
    feasible bounds constr x /\
    forall y a b, feasible bounds constr y -> nth_error (eval x) i = Some a -> nth_error (eval y) i = Some b -> nleb a b = true.
  Proof.
    intros HH HE ([jf jb jc jm jg] & ws & H1 & H2 & H3 & H4 & H5 & _) Hi. cbn in H3, H4, H5. subst jf jb jc.
    destruct (HH _ _ H1) as (HF & v & Hv & Hmin). cbn [sj_bounds sj_constr sj_fun] in *.
    split; [exact HF|]. intros y a b Hy Ha Hb.
    destruct (HE x HF) as (Lx & Fx). destruct (HE y Hy) as (Ly & Fy).
    destruct (sl_sel N S n i _ ws a Lx Ha Fx H2) as (r & Er & Qr).
    destruct (sl_sel N S n i _ ws b Ly Hb Fy H2) as (r' & Er' & Qr').
    destruct (Hmin y Hy) as (w & Hw & Hle). rewrite Er in Hv. rewrite Er' in Hw. injection Hv as <-. injection Hw as <-.
    apply eqb_le in Qr. apply eqb_le in Qr'. destruct Qr, Qr'.
    eapply (ol_trans N L); [|eassumption]. eapply (ol_trans N L); eassumption.
  Qed.
End Min.

Open Scope R_scope.
(** ** PointMethodASF on finite numbers *)
Definition rterms (nd id f q : list R) : list R := zipw Rdiv (rsub f q) (rsub nd (map (fun x => x - 1 / 1000000) id)).
Lemma terms_xr nd id f q : length f = length nd -> length q = length nd -> rvle id nd ->
  pm_terms (N:=XR) (xv nd) (xv id) (xv f) (xv q) = xv (rterms nd id f q).
Proof.
  unfold pm_terms, vdiv, vsub, rterms, rsub. intros Hf Hq H. revert f q Hf Hq. rewrite eps6_xr. induction H as [|a b id nd Hab H IH]; intros f q Hf Hq.
  - destruct f; [|discriminate]. reflexivity.
  - destruct f as [|x f]; [discriminate|]. destruct q as [|y q]; [discriminate|].
    cbn [xv map zipw]. f_equal; [|apply IH; cbn in *; lia].
    change (xdiv (Fin (x - y)) (Fin (b - (a - 1 / 1000000))) = Fin ((x - y) / (b - (a - 1 / 1000000)))).
    apply xdiv_fin. lra.
Qed.
Lemma fold_max_xr (l : list R) : forall x, fold_left (@nmaximum XR) (xv l) (Fin x : XR) = (Fin (fold_left Rmax l x) : XR).
Proof.
  induction l as [|y l IH]; intros x; [reflexivity|]. cbn [xv map fold_left]. rewrite <- IH. f_equal.
  unfold nmaximum. rewrite xisnan_fin, orb_false_r. destruct (@nleb XR (Fin y) (Fin x)) eqn:E.
  - apply xleb_fin in E. rewrite Rmax_left by lra. reflexivity.
  - apply xleb_fin_false in E. rewrite Rmax_right by lra. reflexivity.
Qed.
Lemma pm_asf_xr nd id f q x l : length f = length nd -> length q = length nd -> rvle id nd -> rterms nd id f q = x :: l ->
  pm_asf (N:=XR) (xv nd) (xv id) (xv f) (xv q) = (Fin (fold_left Rmax l x + 1 / 1000000 * fold_left Rplus (x :: l) 0) : XR).
Proof.
  intros Hf Hq H E. unfold pm_asf. rewrite terms_xr, E by auto. cbn [xv map].
  change (map Fin l) with (xv l). rewrite fold_max_xr, eps6_xr.
  assert (EV : vsum (N:=XR) ((Fin x : XR) :: xv l) = (Fin (fold_left Rplus (x :: l) 0) : XR)).
  { unfold vsum. change ((Fin x : XR) :: xv l) with (xv (x :: l)). exact (vsum_xr (x :: l) 0). }
  rewrite EV. reflexivity.
Qed.
Lemma rmax_mono a b : Forall2 Rle a b -> forall x y, x <= y -> fold_left Rmax a x <= fold_left Rmax b y.
Proof. induction 1 as [|u v a b Huv H IH]; intros x y Hxy; cbn; [exact Hxy|]. apply IH. apply Rmax_lub; [eapply Rle_trans; [exact Hxy|apply Rmax_l]|eapply Rle_trans; [exact Huv|apply Rmax_r]]. Qed.
Lemma rplus_mono a b : Forall2 Rle a b -> forall x y, x <= y -> fold_left Rplus a x <= fold_left Rplus b y.
Proof. induction 1 as [|u v a b Huv H IH]; intros x y Hxy; cbn; [exact Hxy|]. apply IH. lra. Qed.
Lemma rplus_strict a b : Forall2 Rle a b -> a <> b -> forall x y, x <= y -> fold_left Rplus a x < fold_left Rplus b y.
Proof.
  induction 1 as [|u v a b Huv H IH]; intros Hne x y Hxy; [congruence|]. cbn. destruct (Req_dec u v) as [->|Hd].
  - apply IH; [congruence|lra].
  - assert (G : forall p q, p < q -> fold_left Rplus a p < fold_left Rplus b q).
    { clear - H. induction H as [|u v a b Huv H IH]; intros p q Hpq; cbn; [exact Hpq|]. apply IH. lra. }
    apply G. lra.
Qed.
Lemma rterms_mono nd id q : rvle id nd -> forall f g, length q = length nd -> length f = length nd -> rvle f g -> rvle (rterms nd id f q) (rterms nd id g q) /\ (f <> g -> rterms nd id f q <> rterms nd id g q).
Proof.
  unfold rterms, rsub. intros H. revert q. induction H as [|a b id nd Hab H IH]; intros q f g Hq Hf Hfg.
  - destruct f; [|discriminate]. inversion Hfg; subst. split; [constructor|congruence].
  - destruct q as [|y q]; [discriminate|]. inversion Hfg as [|u v f' g' Huv Hfg']; subst; [discriminate|].
    destruct (IH q f' g') as [I1 I2]; [cbn in *; lia|cbn in *; lia|exact Hfg'|]. cbn [map zipw].
    assert (HD : 0 < / (b - (a - 1 / 1000000))) by (apply Rinv_0_lt_compat; lra). unfold Rdiv at 2 4 6 8.
    split.
    + constructor; [|exact I1]. apply Rmult_le_compat_r; lra.
    + intros Hne E. injection E as E1 E2. apply Rmult_eq_reg_r in E1; [|lra]. assert (u = v) by lra. subst v. apply I2; [congruence|exact E2].
Qed.
Lemma rterms_len nd id f q : length id = length nd -> length f = length nd -> length q = length nd -> length (rterms nd id f q) = length nd.
Proof. intros. unfold rterms, rsub. rewrite !zipw_length, map_length. lia. Qed.
(** Strictly increasing with respect to dominance. *)
Lemma pm_asf_strict nd id f g q : nd <> [] -> rvle id nd -> length q = length nd -> length f = length nd -> rvle f g -> f <> g ->
  exists a b, pm_asf (N:=XR) (xv nd) (xv id) (xv f) (xv q) = (Fin a : XR) /\ pm_asf (N:=XR) (xv nd) (xv id) (xv g) (xv q) = (Fin b : XR) /\ a < b.
Proof.
  intros Hn H Hq Hf Hfg Hne. destruct (rterms_mono nd id q H f g Hq Hf Hfg) as [T1 T2]. specialize (T2 Hne).
  assert (Hg : length g = length nd) by (rewrite <- Hf; symmetry; apply rvle_len; exact Hfg).
  assert (Hid : length id = length nd) by (apply rvle_len; exact H).
  destruct (rterms nd id f q) as [|x l] eqn:E1.
  { pose proof (rterms_len nd id f q Hid Hf Hq) as E. rewrite E1 in E. destruct nd; [congruence|discriminate]. }
  destruct (rterms nd id g q) as [|y m] eqn:E2; [inversion T1|].
  eexists _, _. split; [apply pm_asf_xr; eauto|]. split; [apply pm_asf_xr; eauto|].
  pose proof (rplus_strict _ _ T1 T2 0 0 (Rle_refl 0)) as HS. inversion T1 as [|? ? ? ? Hxy Hlm]; subst.
  pose proof (rmax_mono _ _ Hlm x y Hxy). lra.
Qed.

(** ** The grid *)
Definition axis (lo s : R) (c : nat) : list R := map (fun i => INR i * s + lo) (seq 0 c).
Lemma axis_In lo s c v : In v (axis lo s c) <-> exists i, (i < c)%nat /\ v = INR i * s + lo.
Proof.
  unfold axis. rewrite in_map_iff. split.
  - intros (i & <- & Hi). apply in_seq in Hi. exists i. split; [lia|reflexivity].
  - intros (i & Hi & ->). exists i. split; [reflexivity|]. apply in_seq. lia.
Qed.
Lemma axis_sorted lo s c : 0 < s -> StronglySorted Rlt (axis lo s c).
Proof.
  intros Hs. unfold axis. generalize 0%nat. induction c as [|c IH]; intros k; [constructor|]. cbn [seq map]. constructor; [apply IH|].
  apply Forall_forall. intros v Hv. apply in_map_iff in Hv. destruct Hv as (i & <- & Hi). apply in_seq in Hi.
  assert (INR k < INR i) by (apply lt_INR; lia). apply Rplus_lt_compat_r. apply Rmult_lt_compat_r; assumption.
Qed.
Lemma ceil_lt r c i : is_ceil r c -> (Z.of_nat i < c)%Z <-> INR i < r.
Proof.
  intros [H1 H2]. rewrite INR_IZR_INZ. split; intros H.
  - assert (Z.of_nat i <= c - 1)%Z by lia. apply IZR_le in H0. rewrite minus_IZR in H0. lra.
  - apply lt_IZR. lra.
Qed.
Lemma sv_axis_xr (e : sv_env XR) lo up eps s : exact_ceil e -> 0 < s -> lo <= up -> 0 < eps ->
  exists c, sv_axis e (Fin lo : XR) (Fin up : XR) (Fin eps : XR) (Fin s : XR) = Ok (xv (axis lo s c)) /\
    (forall v, In v (axis lo s c) <-> exists i, v = lo + INR i * s /\ v < up + eps).
Proof.
  intros (HC & _) Hs Hlu He. unfold sv_axis.
  assert (EQ : @ndiv XR (@nsub XR (@nadd XR (Fin up : XR) (Fin eps : XR)) (Fin lo : XR)) (Fin s : XR) = (Fin ((up + eps - lo) / s) : XR)).
  { change (xdiv (Fin (up + eps - lo)) (Fin s) = Fin ((up + eps - lo) / s)). apply xdiv_fin. lra. }
  rewrite EQ. destruct (HC ((up + eps - lo) / s)) as (c & Hc & Hcc). rewrite Hc. cbn [rbind].
  assert (HP : 0 < (up + eps - lo) / s) by (apply Rdiv_lt_0_compat; lra).
  assert (Hc0 : (0 < c)%Z). { apply lt_IZR. destruct Hcc. lra. }
  destruct (Z.ltb_spec c 0) as [?|_]; [lia|]. exists (Z.to_nat c). split.
  - f_equal. unfold axis, xv. rewrite map_map. apply map_ext. intros i.
    change (@nadd XR (@nmul XR (nofZ (Z.of_nat i)) (Fin s : XR)) (Fin lo : XR)) with (Fin (IZR (Z.of_nat i) * s + lo) : XR). rewrite <- INR_IZR_INZ. reflexivity.
  - intros v. rewrite axis_In.
    assert (HL : forall i : nat, INR i < (up + eps - lo) / s <-> lo + INR i * s < up + eps).
    { intros i. split; intros H.
      - apply (Rmult_lt_compat_r s) in H; [|lra]. unfold Rdiv in H. rewrite Rmult_assoc, Rinv_l in H by lra. lra.
      - apply (Rmult_lt_reg_r s); [lra|]. unfold Rdiv. rewrite Rmult_assoc, Rinv_l by lra. lra. }
    split.
    + intros (i & Hi & ->). exists i. split; [lra|]. rewrite Rplus_comm. apply HL. apply (ceil_lt _ _ _ Hcc). lia.
    + intros (i & -> & Hi). exists i. split; [|lra]. apply HL in Hi. apply (ceil_lt _ _ _ Hcc) in Hi. lia.
Qed.

Fixpoint rmesh (axes : list (list R)) : list (list R) :=
  match axes with [] => [[]] | a :: r => flat_map (fun x => map (cons x) (rmesh r)) a end.
Lemma mesh_xr axes : sv_mesh (map xv axes : list (list XR)) = xm (rmesh axes).
Proof.
  induction axes as [|a r IH]; [reflexivity|]. cbn [map sv_mesh rmesh]. rewrite IH. clear. induction a as [|x a IH]; [reflexivity|].
  cbn [xv map flat_map]. unfold xm. rewrite map_app, !map_map. f_equal. exact IH.
Qed.
Lemma rmesh_In axes z : In z (rmesh axes) <-> Forall2 (fun x a => In x a) z axes.
Proof.
  revert z. induction axes as [|a r IH]; intros z; cbn [rmesh].
  - split; [intros [<-|[]]; constructor|]. intros H. inversion H; subst. left. reflexivity.
  - rewrite in_flat_map. split.
    + intros (x & Hx & Hz). apply in_map_iff in Hz. destruct Hz as (z' & <- & Hz'). constructor; [exact Hx|]. apply IH. exact Hz'.
    + intros H. inversion H as [|x a' z' r' Hx Hz' E1 E2]; subst. exists x. split; [exact Hx|]. apply in_map. apply IH. exact Hz'.
Qed.
Lemma ss_app {A} (R : A -> A -> Prop) l1 l2 : StronglySorted R l1 -> StronglySorted R l2 -> (forall a b, In a l1 -> In b l2 -> R a b) -> StronglySorted R (l1 ++ l2).
Proof.
  intros H1 H2 H. induction H1 as [|a l1 H1 IH HF]; [exact H2|]. cbn. constructor.
  - apply IH. intros x y Hx. apply H. right. exact Hx.
  - apply Forall_app. split; [exact HF|]. apply Forall_forall. intros b Hb. apply H; [left; reflexivity|exact Hb].
Qed.
Lemma rmesh_sorted axes : Forall (StronglySorted Rlt) axes -> StronglySorted lexlt (rmesh axes).
Proof.
  induction 1 as [|a r Ha Hr IH]; [repeat constructor|]. cbn [rmesh]. clear Hr. induction Ha as [|x a Ha IHa HF]; [constructor|].
  cbn [flat_map]. apply ss_app.
  - clear - IH. induction IH as [|z m IH IH2 HF]; [constructor|]. cbn. constructor; [exact IH2|]. apply Forall_map. eapply Forall_impl; [|exact HF]. intros b Hb. constructor 2. exact Hb.
  - exact IHa.
  - intros p q Hp Hq. apply in_map_iff in Hp. destruct Hp as (p' & <- & _). apply in_flat_map in Hq. destruct Hq as (y & Hy & Hq). apply in_map_iff in Hq. destruct Hq as (q' & <- & _).
    constructor 1. rewrite Forall_forall in HF. apply HF. exact Hy.
Qed.
Lemma sv_axes_xr (e : sv_env XR) eps : exact_ceil e -> 0 < eps -> forall lo up ss, length lo = length ss -> rvle lo up -> Forall (fun s => 0 < s) ss ->
  exists axes, sv_axes e (xv lo) (xv up) (Fin eps : XR) (xv ss) = Ok (map xv axes) /\ Forall (StronglySorted Rlt) axes /\
    forall z, Forall2 (fun x a => In x a) z axes <-> on_grid eps lo up ss z.
Proof.
  intros HC He lo up ss Hl Hle Hs. revert ss Hl Hs. induction Hle as [|l u lo up Hlu Hle IH]; intros [|s ss] Hl Hs; try discriminate.
  - exists []. split; [reflexivity|]. split; [constructor|]. intros z. split; intros H; inversion H; subst; constructor.
  - inversion Hs as [|? ? Hs1 Hs2]; subst. destruct (IH ss) as (axes & E & F & HI); [cbn in Hl; lia|exact Hs2|].
    destruct (sv_axis_xr e l u eps s HC Hs1 Hlu He) as (c & Ec & HIc).
    exists (axis l s c :: axes). cbn [xv map sv_axes]. fold (xv lo) (xv up) (xv ss). rewrite Ec. cbn [rbind]. rewrite E. cbn [rbind].
    split; [reflexivity|]. split; [constructor; [apply axis_sorted; exact Hs1|exact F]|]. intros z. split; intros H.
    + inversion H as [|x a z' r' Hx Hz' E1 E2]; subst. apply HIc in Hx. destruct Hx as (i & -> & Hi). econstructor; [reflexivity|exact Hi|apply HI; exact Hz'].
    + inversion H as [|lo' up' s' z' los ups ss' zs i Ez Hz Hr]; subst. constructor; [apply HIc; eauto|apply HI; exact Hr].
Qed.
Lemma zipmin_xr a b : zipw (@nminimum XR) (xv a) (xv b) = xv (zipw Rmin a b).
Proof.
  revert b. induction a as [|x a IH]; intros [|y b]; try reflexivity. cbn [xv map zipw]. f_equal; [|apply IH].
  unfold nminimum. rewrite xisnan_fin, orb_false_r. destruct (@nleb XR (Fin x) (Fin y)) eqn:E.
  - apply xleb_fin in E. rewrite Rmin_left by lra. reflexivity.
  - apply xleb_fin_false in E. rewrite Rmin_right by lra. reflexivity.
Qed.
Lemma zipmax_xr a b : zipw (@nmaximum XR) (xv a) (xv b) = xv (zipw Rmax a b).
Proof.
  revert b. induction a as [|x a IH]; intros [|y b]; try reflexivity. cbn [xv map zipw]. f_equal; [|apply IH].
  unfold nmaximum. rewrite xisnan_fin, orb_false_r. destruct (@nleb XR (Fin y) (Fin x)) eqn:E.
  - apply xleb_fin in E. rewrite Rmax_left by lra. reflexivity.
  - apply xleb_fin_false in E. rewrite Rmax_right by lra. reflexivity.
Qed.
Lemma minmax_le a b : length a = length b -> rvle (zipw Rmin a b) (zipw Rmax a b).
Proof. revert b. induction a as [|x a IH]; intros [|y b] H; try discriminate; [constructor|]. cbn. constructor; [eapply Rle_trans; [apply Rmin_l|apply Rmax_l]|apply IH; cbn in H; lia]. Qed.

Lemma steps_xr k st ss : step_is k st ss -> sv_steps k st = Ok (xv ss).
Proof.
  intros (Hl & [->|(s & -> & ->)]); cbn [sv_steps].
  - rewrite xv_length, Hl, Nat.eqb_refl. reflexivity.
  - f_equal. unfold xv. clear. induction k as [|k IH]; [reflexivity|]. cbn [repeat map]. f_equal. exact IH.
Qed.
Lemma grid_xr (e : sv_env XR) id nd eps st ss : exact_ceil e -> 0 < eps -> id <> [] -> length id = length nd ->
  step_is (length id) st ss -> Forall (fun s => 0 < s) ss ->
  exists Z, sv_grid e (xv id) (xv nd) (Fin eps : XR) st = Ok (xm Z) /\ StronglySorted lexlt Z /\
    forall z, In z Z <-> on_grid eps (zipw Rmin id nd) (zipw Rmax id nd) ss z.
Proof.
  intros HC He Hne Hl Hst Hs. unfold sv_grid. rewrite !xv_length, Hl, Nat.eqb_refl. cbn [negb].
  rewrite <- Hl, (steps_xr _ _ _ Hst). cbn [rbind]. rewrite zipmin_xr, zipmax_xr.
  destruct (sv_axes_xr e eps HC He (zipw Rmin id nd) (zipw Rmax id nd) ss) as (axes & E & F & HI).
  - rewrite zipw_length. destruct Hst as [Hst _]. lia.
  - apply minmax_le. exact Hl.
  - exact Hs.
  - rewrite E. cbn [rbind]. exists (rmesh axes). destruct id as [|i id]; [congruence|]. cbn [xv map].
    split; [rewrite mesh_xr; reflexivity|]. split; [apply rmesh_sorted; exact F|]. intros z. rewrite rmesh_In. apply HI.
Qed.
Lemma on_grid_len eps lo up ss z : on_grid eps lo up ss z -> length z = length lo.
Proof. induction 1; cbn; auto. Qed.
