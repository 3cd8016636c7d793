(** * NIMBUS: instances for the weak optimality of data rows. *)
From Coq Require Import ZArith List Bool Lia Reals Lra Floats.
From Verif Require Import Num NumXR NumF64 F64Facts Py Np Spec NpFacts XRFacts PAsf MNimbus SNimbus PNimbus PNimbus2 PNimbus3 PNimbus4 PNimbus6 PNimbus7 PNimbus8 SNimbus3 PNimbus11 MNimbusAsf PNimbus12.
Import ListNotations.

Lemma XR_slack : slack_monotone (N:=XR) xfin.
Proof.
  intros c x y [a ->] [b ->] H1 H2. apply xltb_fin in H1. destruct c as [| | |c]; try exact H2.
  change (@nleb XR (Fin 0) (Fin (c - a)) = true) in H2. change (@nleb XR (Fin 0) (Fin (c - b)) = true). apply xleb_fin in H2. apply xleb_fin. lra.
Qed.
Lemma F64_slack : slack_monotone (N:=F64) ffin.
Proof.
  intros c x y Fx Fy H1 H2. destruct (PrimFloat.is_finite c) eqn:Fc.
  - change (PrimFloat.leb 0%float (PrimFloat.sub c x) = true) in H2. change (PrimFloat.leb 0%float (PrimFloat.sub c y) = true).
    rewrite f64_sub_nonneg in * by assumption. apply (ltb_true F64_ord) in H1 as [H1 _]. exact (ol_trans F64 F64_ord y x c H1 H2).
  - change (PrimFloat.leb 0%float (PrimFloat.sub c x) = true) in H2. change (PrimFloat.leb 0%float (PrimFloat.sub c y) = true).
    unfold ffin in Fx, Fy. rewrite FloatAxioms.leb_spec, FloatAxioms.sub_spec in *.
    assert (S : forall t : PrimFloat.float, PrimFloat.is_finite t = true -> match Prim2SF t with S754_zero _ | S754_finite _ _ _ => True | _ => False end).
    { intros t Ht. unfold PrimFloat.is_finite, PrimFloat.is_nan, PrimFloat.is_infinity in Ht. rewrite !FloatAxioms.eqb_spec, FloatAxioms.abs_spec in Ht.
      change (Prim2SF infinity) with (S754_infinity false) in Ht. destruct (Prim2SF t) as [s|[]| |s m e]; auto; vm_compute in Ht; discriminate Ht. }
    assert (C : match Prim2SF c with S754_infinity _ | S754_nan => True | _ => False end).
    { unfold PrimFloat.is_finite, PrimFloat.is_nan, PrimFloat.is_infinity in Fc. rewrite !FloatAxioms.eqb_spec, FloatAxioms.abs_spec in Fc.
      change (Prim2SF infinity) with (S754_infinity false) in Fc. destruct (Prim2SF c) as [s|s| |s m e] eqn:E; auto; [vm_compute in Fc; discriminate Fc|].
      unfold SFeqb in Fc. assert (R : SFcompare (S754_finite s m e) (S754_finite s m e) = Some Eq).
      { cbn. destruct s; rewrite Z.compare_refl, Pos.compare_refl; reflexivity. }
      rewrite R in Fc. cbn in Fc. discriminate. }
    specialize (S x Fx) as Sx. specialize (S y Fy) as Sy. destruct (Prim2SF c); try contradiction; destruct (Prim2SF x); try contradiction; destruct (Prim2SF y); try contradiction; exact H2.
Qed.

(** NaN propagates through the documented formulas. *)
Lemma xnan_iff (x : XR) : nisnan x = true <-> x = XNan.
Proof. split; [|intros ->; reflexivity]. destruct x as [| | |r]; auto; try discriminate. rewrite xisnan_fin. discriminate. Qed.
Lemma xmaxnan (y : XR) : @nmaximum XR XNan y = XNan.
Proof. unfold nmaximum. change (@nisnan XR XNan) with true. rewrite orb_true_r. reflexivity. Qed.
Lemma npmax_nan (l : list XR) v : Forall (fun x => x = XNan) l -> npmax l = Ok v -> v = XNan.
Proof.
  intros F H. destruct l as [|x l]; [discriminate|]. assert (Hx : x = XNan) by (inversion F; auto). assert (E : v = fold_left (@nmaximum XR) l x) by (change (@Ok XR (fold_left (@nmaximum XR) l x) = @Ok XR v) in H; congruence). clear H F. subst x v.
  induction l as [|y l IH]; cbn [fold_left]; auto. rewrite xmaxnan. auto.
Qed.
Lemma zip_nan (h : XR -> XR -> XR) : (forall y, h XNan y = XNan) -> forall a b, Forall (fun x => x = XNan) a -> Forall (fun x => x = XNan) (zipw h a b).
Proof. intros H a b F. revert b. induction F as [|x a Hx F IH]; intros [|y b]; cbn; constructor; auto. subst. auto. Qed.
Lemma bcast_nan (h : XR -> XR -> XR) : (forall y, h XNan y = XNan) -> forall a b v, a <> [] -> Forall (fun x => x = XNan) a -> bcast2 h a b = Ok v -> Forall (fun x => x = XNan) v.
Proof.
  intros H a b v Ha F. unfold bcast2. match goal with |- context [Nat.eqb ?u ?w] => destruct (Nat.eqb u w) end.
  - intros E. injection E as <-. apply zip_nan; auto.
  - destruct a as [|x [|x2 a]]; [congruence| |].
    + inversion F; subst. intros E. injection E as <-. apply Forall_map. apply Forall_forall. auto.
    + destruct b as [|y [|]]; try discriminate. intros E. injection E as <-. change (Forall (fun x => x = XNan) (map (fun x => h x y) (x :: x2 :: a))).
      apply Forall_map. eapply Forall_impl; [|exact F]. cbn. intros t ->. auto.
Qed.
Lemma bcast_nil {A B C} (h : A -> B -> C) b v : bcast2 h [] b = Ok v -> v = [].
Proof. destruct b as [|y [|y2 b]]; cbn; intros E; congruence. Qed.
Lemma take_nan (a : list XR) inds v : Forall (fun x => x = XNan) a -> take a inds = Ok v -> Forall (fun x => x = XNan) v.
Proof. intros F H. apply take_ok in H. induction H; constructor; auto. rewrite Forall_forall in F. apply F. eapply nth_error_In; eauto. Qed.
Lemma bcast_ne {A B C} (h : A -> B -> C) a b v : a <> [] -> b <> [] -> bcast2 h a b = Ok v -> v <> [].
Proof.
  intros Ha Hb. unfold bcast2. destruct a as [|x a]; [congruence|]. destruct b as [|y b]; [congruence|]. destruct (Nat.eqb _ _); [intros E; injection E as <-; discriminate|].
  destruct a; [intros E; injection E as <-; discriminate|]. destruct b; [intros E; injection E as <-; discriminate|discriminate].
Qed.
Lemma doc_nan delta rho : nan_on_nan_rows (N:=XR) (nb_asf_doc delta rho).
Proof.
  intros a row ref v Hne F H. assert (F' : Forall (fun x : XR => x = XNan) row). { eapply Forall_impl; [|exact F]. cbn. intros x. apply xnan_iff. }
  clear F. rename F' into F. apply xnan_iff.
  assert (S : forall y, @nsub XR XNan y = XNan) by (intros []; reflexivity). assert (D : forall y, @ndiv XR XNan y = XNan) by (intros []; reflexivity).
  assert (A : forall y, @nadd XR XNan y = XNan) by (intros []; reflexivity).
  destruct a as [nd id lt lte|id|nd id|nd id ex]; unfold nb_asf_doc in H.
  - apply rbind_ok in H as (f1 & F1 & H). apply rbind_ok in H as (i1 & I1 & H). apply rbind_ok in H as (w1 & W1 & H).
    apply rbind_ok in H as (f2 & F2 & H). apply rbind_ok in H as (z2 & Z2 & H). apply rbind_ok in H as (w2 & W2 & H).
    apply rbind_ok in H as (m & Hmx & H). apply rbind_ok in H as (e & He & H). injection H as <-.
    apply npmax_nan in Hmx; [subst m; apply A|]. apply take_nan in F1; auto. apply take_nan in F2; auto.
    apply Forall_app. split; apply (zip_nan (@ndiv XR)); auto; apply (zip_nan (@nsub XR)); auto.
  - apply rbind_ok in H as (d & Hd1 & H). apply rbind_ok in H as (t & Ht & H). apply rbind_ok in H as (m & Hmx & H). apply rbind_ok in H as (e & He & H). injection H as <-.
    pose proof (bcast_nan (@nsub XR) S _ _ _ Hne F Hd1) as Fd.
    apply npmax_nan in Hmx; [subst m; apply A|]. destruct d as [|d0 d]; [|refine (bcast_nan (@ndiv XR) D _ _ _ _ Fd Ht); discriminate].
    apply bcast_nil in Ht. subst t. constructor.
  - apply rbind_ok in H as (d & Hd1 & H). apply rbind_ok in H as (t & Ht & H). apply rbind_ok in H as (m & Hmx & H). apply rbind_ok in H as (e & He & H). injection H as <-.
    pose proof (bcast_nan (@nsub XR) S _ _ _ Hne F Hd1) as Fd.
    apply npmax_nan in Hmx; [subst m; apply A|]. destruct d as [|d0 d]; [|refine (bcast_nan (@ndiv XR) D _ _ _ _ Fd Ht); discriminate].
    apply bcast_nil in Ht. subst t. constructor.
  - apply rbind_ok in H as (f1 & F1 & H). apply rbind_ok in H as (n1 & N1 & H). apply rbind_ok in H as (w1 & W1 & H). apply rbind_ok in H as (m & Hmx & H).
    apply rbind_ok in H as (f2 & F2 & H). apply rbind_ok in H as (w2 & W2 & H). injection H as <-.
    apply npmax_nan in Hmx; [subst m; apply A|]. apply take_nan in F1; auto. apply (zip_nan (@ndiv XR)); auto; apply (zip_nan (@nsub XR)); auto.
Qed.

(** The demonstration function of PNimbus8.v prefers better rows, in doubles. *)
Lemma bav_improves (objs : list (list F64)) a ref : Forall (fun r : list F64 => r <> []) objs -> improves_on bav objs a ref.
Proof.
  intros HE f g v Hf Hg B H _. unfold bav in *. injection H as <-. eexists. split; [reflexivity|].
  assert (Hne : f <> []) by (rewrite Forall_forall in HE; auto).
  assert (F1 : @nltb F64 (hd (nofZ 0) g) (hd (nofZ 0) f) = true) by (destruct B; [congruence|auto]).
  assert (F2 : @nltb F64 (last g (nofZ 0)) (last f (nofZ 0)) = true).
  { clear - B Hne. induction B as [|x y g f Hxy B IH]; [congruence|]. destruct B as [|x2 y2 g f H2 B]; [exact Hxy|]. apply IH. discriminate. }
  destruct a; assumption.
Qed.
