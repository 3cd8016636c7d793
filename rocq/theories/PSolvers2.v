(** * The weighted scalarizer with unit weights, for exact numbers and for doubles. *)
From Coq Require Import String.
From Coq Require Import ZArith List Bool Lia Reals Lra Floats.
From Flocq Require Import BinarySingleNaN PrimFloat.
From Verif Require Import Num NumXR NumF64 Py Np Spec NpFacts XRFacts MRpm MParetoNav MSolvers SSolvers PSolvers F64Sums.
Import ListNotations.

(** What the proofs need of the arithmetic: a set of numbers [fin x] (finite), with
    a value-preserving sum with zeros. *)
Record sel_law (N : NumOps) : Prop := {
  sl_sel : forall k i (f ws : list N) v, length f = k -> nth_error f i = Some v -> Forall nfinite f -> selects k i ws ->
    exists r, sv_weighted f ws = Ok r /\ neqb r v = true;
  sl_nan : forall k i j (f ws : list N) v, length f = k -> nth_error f j = Some v -> j <> i -> ~ nfinite v -> selects k i ws ->
    exists r, sv_weighted f ws = Ok r /\ nisnan r = true }.

Section Split.
  Context {N : NumOps}.
  Lemma selects_split k i (ws : list N) : i < k -> selects k i ws -> ws = repeat (nofZ 0) i ++ nofZ 1 :: repeat (nofZ 0) (k - S i).
  Proof.
    intros Hi H. apply (selects_eq k i); auto. split.
    - rewrite app_length. cbn. rewrite !repeat_length. lia.
    - intros j w Hj. destruct (Nat.eqb_spec j i) as [->|Hne].
      + rewrite nth_error_app2 in Hj by (rewrite repeat_length; lia). rewrite repeat_length, Nat.sub_diag in Hj. cbn in Hj. congruence.
      + assert (HIn : In w (repeat (nofZ 0) i ++ repeat (nofZ 0) (k - S i))).
        { destruct (Nat.lt_ge_cases j i) as [L|L].
          - rewrite nth_error_app1 in Hj by (rewrite repeat_length; lia). apply in_or_app. left. eapply nth_error_In; eauto.
          - rewrite nth_error_app2 in Hj by (rewrite repeat_length; lia). rewrite repeat_length in Hj.
            destruct (j - i) as [|m] eqn:E; [lia|]. cbn in Hj. apply in_or_app. right. eapply nth_error_In; eauto. }
        apply in_app_or in HIn. destruct HIn as [HIn|HIn]; apply repeat_spec in HIn; exact HIn.
  Qed.
  Lemma zipw_app {A B C} (f : A -> B -> C) a1 a2 b1 b2 : length a1 = length b1 -> zipw f (a1 ++ a2) (b1 ++ b2) = zipw f a1 b1 ++ zipw f a2 b2.
  Proof. revert b1. induction a1 as [|x a1 IH]; intros [|y b1] H; try discriminate; [reflexivity|]. cbn. f_equal. apply IH. cbn in H. lia. Qed.
  Lemma weighted_split (a b : list N) v i k ws : length a = i -> length (a ++ v :: b) = k -> selects k i ws ->
    sv_weighted (a ++ v :: b) ws =
    Ok (fold_left nadd (zipw nmul b (repeat (nofZ 0) (length b))) (nadd (fold_left nadd (zipw nmul a (repeat (nofZ 0) (length a))) (nofZ 0)) (nmul v (nofZ 1)))).
  Proof.
    intros Ha Hk Hs. unfold sv_weighted. assert (HL : length ws = k) by apply Hs. rewrite bcast2_eq by congruence.
    cbn [rbind]. rewrite app_length in Hk. cbn [length] in Hk.
    rewrite (selects_split k i ws) by (auto; lia). rewrite zipw_app by (rewrite repeat_length; exact Ha). cbn [zipw].
    replace (k - S i) with (length b) by lia. rewrite <- Ha. unfold vsum. rewrite fold_left_app. reflexivity.
  Qed.
End Split.

Open Scope R_scope.
(** Exact numbers. *)
Lemma zeros_xr (a : list R) acc : fold_left (@nadd XR) (zipw (@nmul XR) (xv a) (repeat (nofZ 0) (length (xv a)))) (Fin acc : XR) = (Fin acc : XR).
Proof.
  revert acc. induction a as [|x a IH]; intros acc; [reflexivity|]. cbn [xv map length repeat zipw fold_left].
  change (@nadd XR (Fin acc) (@nmul XR (Fin x) (nofZ 0))) with (Fin (acc + x * 0) : XR). replace (acc + x * 0) with acc by lra. apply IH.
Qed.
Lemma xfinite_iff (x : XR) : nfinite x <-> exists r, x = Fin r.
Proof.
  unfold nfinite. destruct x as [| | |r]; split; intros H; eauto; try (destruct H; discriminate);
    try (exfalso; apply xisnan_false in H; apply H; reflexivity). apply xisnan_false. discriminate.
Qed.
Lemma xfinite_all (f : list XR) : Forall nfinite f -> exists r, f = xv r.
Proof.
  induction 1 as [|x f Hx Hf (r & ->)]; [exists []; reflexivity|]. apply xfinite_iff in Hx. destruct Hx as (v & ->). exists (v :: r). reflexivity.
Qed.
Lemma xnan_add_l (x : XR) : @nadd XR XNan x = XNan. Proof. reflexivity. Qed.
Lemma xnan_add_r (x : XR) : @nadd XR x XNan = XNan. Proof. destruct x; reflexivity. Qed.
Lemma fold_nan_xr (l : list XR) : fold_left (@nadd XR) l (XNan : XR) = (XNan : XR).
Proof. induction l as [|x l IH]; [reflexivity|]. cbn [fold_left]. rewrite xnan_add_l. exact IH. Qed.
Lemma fold_nan_in_xr (l : list XR) : In (XNan : XR) l -> forall acc, fold_left (@nadd XR) l acc = (XNan : XR).
Proof.
  induction l as [|x l IH]; intros H acc; [destruct H|]. cbn [fold_left]. destruct H as [->|H]; [rewrite xnan_add_r; apply fold_nan_xr|apply IH; exact H].
Qed.
Lemma zero_nonfinite_xr (v : XR) : ~ nfinite v -> @nmul XR v (nofZ 0) = (XNan : XR).
Proof.
  assert (E : xsign 0 = Eq) by (unfold xsign; destruct (Rlt_dec 0 0); [lra|reflexivity]).
  intros H. destruct v as [| | |r].
  - reflexivity.
  - change (xinf_of (xsign 0) = XNan). rewrite E. reflexivity.
  - change (xinf_of (CompOpp (xsign 0)) = XNan). rewrite E. reflexivity.
  - exfalso. apply H. apply xfinite_iff. eauto.
Qed.
Lemma zipw_nth {A B C} (g : A -> B -> C) : forall a b j x y, nth_error a j = Some x -> nth_error b j = Some y -> nth_error (zipw g a b) j = Some (g x y).
Proof. induction a as [|a0 a IH]; intros [|b0 b] [|j] x y Ha Hb; simpl in *; try discriminate; [congruence|eauto]. Qed.

Lemma sel_xr : sel_law XR.
Proof.
  constructor.
  - intros k i f ws v Hk Hv Hf Hs. destruct (nth_error_split _ _ Hv) as (a & b & -> & Ha).
    rewrite (weighted_split a b v i k ws) by auto.
    assert (Hfa : Forall nfinite a /\ Forall nfinite (v :: b)) by (apply Forall_app; exact Hf). destruct Hfa as [Hfa Hfb].
    pose proof (Forall_inv Hfb) as Hfv. apply Forall_inv_tail in Hfb.
    destruct (xfinite_all a Hfa) as (a' & ->). destruct (xfinite_all b Hfb) as (b' & ->). apply xfinite_iff in Hfv. destruct Hfv as (r & ->).
    eexists. split; [reflexivity|]. pose proof (zeros_xr a' 0) as Z1. change (Fin 0 : XR) with (@nofZ XR 0) in Z1. rewrite Z1.
    change (@nadd XR (@nofZ XR 0) (@nmul XR (Fin r) (nofZ 1))) with (Fin (0 + r * 1) : XR). rewrite zeros_xr.
    replace (0 + r * 1) with r by lra. rewrite (ol_eqb XR XR_ord). rewrite (proj2 (xleb_fin r r)) by lra. reflexivity.
  - intros k i j f ws v Hk Hv Hij Hn [Hl Hs]. unfold sv_weighted. rewrite bcast2_eq by congruence. cbn [rbind].
    eexists. split; [reflexivity|]. unfold vsum. rewrite fold_nan_in_xr; [apply xisnan_iff; reflexivity|].
    destruct (nth_error ws j) as [w|] eqn:Ew.
    2:{ apply nth_error_None in Ew. assert (j < length f)%nat by (apply nth_error_Some; congruence). lia. }
    pose proof (Hs j w Ew) as E. destruct (Nat.eqb_spec j i); [contradiction|]. subst w.
    apply (nth_error_In _ j). rewrite (zipw_nth _ _ _ _ _ _ Hv Ew). f_equal. apply zero_nonfinite_xr. exact Hn.
Qed.

(** Doubles. *)
Lemma zeros_f64 (a : list F64) : Forall nfinite a -> forall acc : F64, ffin acc ->
  ffin (fold_left (@nadd F64) (zipw (@nmul F64) a (repeat (nofZ 0) (length a))) acc) /\
  fval (fold_left (@nadd F64) (zipw (@nmul F64) a (repeat (nofZ 0) (length a))) acc) = fval acc.
Proof.
  induction 1 as [|x a Hx Ha IH]; intros acc Hacc; [auto|]. cbn [length repeat zipw fold_left].
  change (@nofZ F64 0) with 0%float in *. cbn [nadd nmul F64] in *.
  assert (Fx : ffin x) by (apply ffin_sub; exact Hx).
  destruct (f64_mul_exact x 0%float 0%float Fx ffin_0) as (M1 & M2); [rewrite fval_0; lra|].
  destruct (f64_add_exact acc (PrimFloat.mul x 0%float) acc Hacc M1) as (A1 & A2); [rewrite M2, fval_0; lra|].
  destruct (IH _ A1) as (I1 & I2). split; [exact I1|congruence].
Qed.
Lemma f64_nan_B (x : PrimFloat.float) : @nisnan F64 x = true <-> Prim2B x = B754_nan.
Proof. rewrite f64_isnan_B. destruct (Prim2B x) as [| | |]; cbn; split; intros; auto; discriminate. Qed.
Lemma f64_nan_add_l (x y : PrimFloat.float) : @nisnan F64 x = true -> @nisnan F64 (PrimFloat.add x y) = true.
Proof. rewrite !f64_nan_B, add_equiv. intros ->. destruct (Prim2B y); reflexivity. Qed.
Lemma f64_nan_add_r (x y : PrimFloat.float) : @nisnan F64 y = true -> @nisnan F64 (PrimFloat.add x y) = true.
Proof. rewrite !f64_nan_B, add_equiv. intros ->. destruct (Prim2B x) as [| | |]; reflexivity. Qed.
Lemma fold_nan_f64 (l : list F64) : forall acc : F64, nisnan acc = true -> nisnan (fold_left (@nadd F64) l acc) = true.
Proof. induction l as [|x l IH]; intros acc H; auto. cbn [fold_left]. apply IH. apply f64_nan_add_l. exact H. Qed.
Lemma fold_nan_in_f64 (l : list F64) : Exists (fun x => nisnan x = true) l -> forall acc : F64, nisnan (fold_left (@nadd F64) l acc) = true.
Proof.
  induction 1 as [x l H|x l H IH]; intros acc; cbn [fold_left]; [|apply IH]. apply fold_nan_f64. apply f64_nan_add_r. exact H.
Qed.
Lemma zero_nonfinite_f64 (v : F64) : ~ nfinite v -> @nisnan F64 (@nmul F64 v (nofZ 0)) = true.
Proof.
  intros H. change (@nofZ F64 0) with 0%float. cbn [nmul F64]. rewrite f64_nan_B, mul_equiv.
  assert (E0 : Prim2B 0%float = B754_zero false) by (change 0%float with zero; rewrite zero_equiv; apply Prim2B_B2Prim). rewrite E0.
  assert (HF : ~ ffin v) by (intros F; apply H; apply ffin_sub; exact F). unfold ffin in HF. rewrite is_finite_equiv in HF.
  destruct (Prim2B v) as [s|s| |s m ex B]; cbn in *; auto; contradiction HF; reflexivity.
Qed.
Lemma sel_f64 : sel_law F64.
Proof.
  constructor.
  - intros k i f ws v Hk Hv Hf Hs. destruct (nth_error_split _ _ Hv) as (a & b & -> & Ha).
    rewrite (weighted_split a b v i k ws) by auto.
    assert (Hfa : Forall nfinite a /\ Forall nfinite (v :: b)) by (apply Forall_app; exact Hf). destruct Hfa as [Hfa Hfb].
    pose proof (Forall_inv Hfb) as Hfv. apply Forall_inv_tail in Hfb. assert (Fv : ffin v) by (apply ffin_sub; exact Hfv).
    eexists. split; [reflexivity|].
    destruct (zeros_f64 a Hfa (nofZ 0) ffin_0) as (Z1 & Z2). set (z := fold_left (@nadd F64) (zipw (@nmul F64) a _) _) in *.
    change (@nofZ F64 0) with 0%float in Z2. rewrite fval_0 in Z2.
    change (@nofZ F64 1) with 1%float. cbn [nadd nmul neqb F64].
    destruct (f64_mul_exact v 1%float v Fv ffin_1) as (M1 & M2); [rewrite fval_1; lra|].
    destruct (f64_add_exact z (PrimFloat.mul v 1%float) v Z1 M1) as (A1 & A2); [rewrite M2, Z2; lra|].
    destruct (zeros_f64 b Hfb _ A1) as (B1 & B2). cbn [nadd nmul F64] in B1, B2. apply f64_eqb_val; auto. congruence.
  - intros k i j f ws v Hk Hv Hij Hn [Hl Hs]. unfold sv_weighted. rewrite bcast2_eq by congruence. cbn [rbind].
    eexists. split; [reflexivity|]. unfold vsum. apply fold_nan_in_f64.
    destruct (nth_error ws j) as [w|] eqn:Ew.
    2:{ apply nth_error_None in Ew. assert (j < length f)%nat by (apply nth_error_Some; congruence). lia. }
    pose proof (Hs j w Ew) as E. destruct (Nat.eqb_spec j i); [contradiction|]. subst w.
    apply Exists_exists. exists (@nmul F64 v (nofZ 0)). split; [|apply zero_nonfinite_f64; exact Hn].
    apply (nth_error_In _ j). rewrite (zipw_nth _ _ _ _ _ _ Hv Ew). reflexivity.
Qed.
