(** * Vectors whose entries are rearranged. *)
From Coq Require Import ZArith List Bool Reals Lra Lia Permutation.
From Verif Require Import Num NumXR Py Np Spec NpFacts SRpm SRpmOrder.
Import ListNotations.

Section Order.
  Context (p : list nat) (k : nat) (HP : Permutation p (seq 0 k)).

  Lemma ord_lt i : In i p -> (i < k)%nat.
  Proof. intros H. apply (Permutation_in _ HP), in_seq in H. lia. Qed.
  Lemma ord_nodup : NoDup p.
  Proof. eapply Permutation_NoDup; [apply Permutation_sym; exact HP|apply seq_NoDup]. Qed.
  Lemma ord_len : length p = k.
  Proof. rewrite (Permutation_length HP). apply seq_length. Qed.

  Lemma arr_map {A B} (g : A -> B) l : arranged p (map g l) = map g (arranged p l).
  Proof.
    unfold arranged. clear HP. induction p as [|i q IH]; [reflexivity|]. cbn [flat_map]. rewrite map_app, IH, nth_error_map.
    destruct (nth_error l i); reflexivity.
  Qed.
  Lemma arr_nth {A} (l : list A) : length l = k -> forall j, nth_error (arranged p l) j = match nth_error p j with Some i => nth_error l i | None => None end.
  Proof.
    intros Hl. unfold arranged. assert (HI : forall i, In i p -> (i < length l)%nat) by (intros i Hi; rewrite Hl; apply ord_lt; exact Hi). clear HP Hl.
    induction p as [|i q IH]; intros j; [destruct j; reflexivity|]. cbn [flat_map].
    destruct (nth_error l i) as [x|] eqn:E; [|apply nth_error_None in E; specialize (HI i (or_introl eq_refl)); lia].
    destruct j; cbn [app nth_error]; [auto|]. apply IH. intros i' Hi. apply HI. right. exact Hi.
  Qed.
  Lemma arr_len {A} (l : list A) : length l = k -> length (arranged p l) = k.
  Proof.
    intros Hl. rewrite <- ord_len at 1. unfold arranged. assert (HI : forall i, In i p -> (i < length l)%nat) by (intros i Hi; rewrite Hl; apply ord_lt; exact Hi). clear HP Hl.
    induction p as [|i q IH]; [reflexivity|]. cbn [flat_map]. rewrite app_length, IH by (intros i' Hi; apply HI; right; exact Hi).
    destruct (nth_error l i) as [x|] eqn:E; [reflexivity|apply nth_error_None in E; specialize (HI i (or_introl eq_refl)); lia].
  Qed.
  Lemma arr_seq {A} (l : list A) : flat_map (fun i => match nth_error l i with Some x => [x] | None => [] end) (seq 0 (length l)) = l.
  Proof.
    assert (G : forall (l2 l1 : list A), flat_map (fun i => match nth_error (l1 ++ l2) i with Some x => [x] | None => [] end) (seq (length l1) (length l2)) = l2).
    { induction l2 as [|x l2 IH]; intros l1; [reflexivity|]. cbn [length seq flat_map]. rewrite nth_error_app2 by lia. rewrite Nat.sub_diag. cbn [nth_error app].
      f_equal. specialize (IH (l1 ++ [x])). rewrite app_length, Nat.add_1_r, <- app_assoc in IH. exact IH. }
    exact (G l []).
  Qed.
  Lemma arr_perm {A} (l : list A) : length l = k -> Permutation (arranged p l) l.
  Proof.
    intros Hl. transitivity (flat_map (fun i => match nth_error l i with Some x => [x] | None => [] end) (seq 0 k)).
    - unfold arranged. apply Permutation_flat_map. exact HP.
    - rewrite <- Hl at 1. rewrite arr_seq. reflexivity.
  Qed.
  Lemma arr_zipw {A B C} (f : A -> B -> C) : forall a b, length a = length b -> zipw f (arranged p a) (arranged p b) = arranged p (zipw f a b).
  Proof.
    intros a b Hl. unfold arranged. clear HP. assert (Z : forall i, nth_error (zipw f a b) i = match nth_error a i, nth_error b i with Some x, Some y => Some (f x y) | _, _ => None end).
    { revert b Hl. induction a as [|x a IH]; intros [|y b] Hl [|i]; try discriminate; try reflexivity. cbn [zipw nth_error]. apply IH. injection Hl. auto. }
    induction p as [|i q IH]; [reflexivity|]. cbn [flat_map]. rewrite Z. destruct (nth_error a i) as [x|] eqn:E1.
    - destruct (nth_error b i) as [y|] eqn:E2; [cbn; f_equal; exact IH|]. apply nth_error_None in E2. pose proof (proj1 (nth_error_Some a i)) as H. rewrite E1 in H. specialize (H ltac:(discriminate)). lia.
    - destruct (nth_error b i) as [y|] eqn:E2; [|exact IH]. apply nth_error_None in E1. pose proof (proj1 (nth_error_Some b i)) as H. rewrite E2 in H. specialize (H ltac:(discriminate)). lia.
  Qed.
  Lemma arr_bcast {A B C} (f : A -> B -> C) a b : length a = k -> length b = k -> bcast2 f (arranged p a) (arranged p b) = Ok (arranged p (zipw f a b)).
  Proof. intros Ha Hb. rewrite bcast2_eq by (rewrite !arr_len by assumption; reflexivity). f_equal. apply arr_zipw. congruence. Qed.
  Lemma arr_order : arranged p (seq 0 k) = p.
  Proof.
    unfold arranged. assert (HI : forall i, In i p -> (i < k)%nat) by apply ord_lt. clear HP. induction p as [|i q IH]; [reflexivity|]. cbn [flat_map].
    rewrite (nth_error_nth' _ 0%nat) by (rewrite seq_length; apply HI; left; reflexivity). rewrite seq_nth by (apply HI; left; reflexivity). cbn. f_equal.
    apply IH. intros i' Hi. apply HI. right. exact Hi.
  Qed.

  (** Operations that do not see the order. *)
  Lemma arr_forallb (l : list bool) : length l = k -> forallb (fun x => x) (arranged p l) = forallb (fun x => x) l.
  Proof.
    intros Hl. pose proof (arr_perm l Hl) as P. destruct (forallb (fun x => x) l) eqn:E.
    - rewrite forallb_forall in E |- *. intros x Hx. apply E. eapply Permutation_in; eauto.
    - destruct (forallb (fun x => x) (arranged p l)) eqn:E2; [|reflexivity]. rewrite <- E. symmetry. rewrite forallb_forall in E2 |- *. intros x Hx. apply E2.
      eapply Permutation_in; [apply Permutation_sym; exact P|exact Hx].
  Qed.
  Lemma fold_perm {A} (f : A -> A -> A) : (forall a b, f a b = f b a) -> (forall a b c, f (f a b) c = f a (f b c)) ->
    forall l l', Permutation l l' -> forall a, fold_left f l a = fold_left f l' a.
  Proof.
    intros C As. induction 1 as [|x l l' _ IH|x y l|l l' l'' _ IH1 _ IH2]; intros a; cbn [fold_left]; auto.
    - f_equal. rewrite !As. f_equal. apply C.
    - rewrite IH1. apply IH2.
  Qed.
  Lemma fold_perm1 {A} (f : A -> A -> A) : (forall a b, f a b = f b a) -> (forall a b c, f (f a b) c = f a (f b c)) ->
    forall x l y l', Permutation (x :: l) (y :: l') -> fold_left f l x = fold_left f l' y.
  Proof.
    intros C As. set (g := fun (a b : option A) => match a, b with Some x, Some y => Some (f x y) | Some x, None => Some x | None, b => b end).
    assert (GC : forall a b, g a b = g b a) by (intros [a|] [b|]; cbn; try reflexivity; rewrite C; reflexivity).
    assert (GA : forall a b c, g (g a b) c = g a (g b c)) by (intros [a|] [b|] [c|]; cbn; try reflexivity; rewrite As; reflexivity).
    assert (G : forall l x, fold_left g (map Some l) (Some x) = Some (fold_left f l x)).
    { induction l as [|y l IH]; intros x; [reflexivity|]. cbn. apply IH. }
    intros x l y l' P. apply (Permutation_map Some) in P. pose proof (fold_perm g GC GA _ _ P None) as E. cbn [map fold_left g] in E. rewrite !G in E. congruence.
  Qed.
  Lemma xadd_comm (a b : XR) : nadd a b = nadd b a.
  Proof. destruct a, b; cbn; try reflexivity. f_equal. lra. Qed.
  Lemma xadd_assoc (a b c : XR) : nadd (nadd a b) c = nadd a (nadd b c).
  Proof. destruct a, b, c; cbn; try reflexivity. f_equal. lra. Qed.
  Lemma xmax_comm (a b : XR) : nmaximum a b = nmaximum b a.
  Proof.
    unfold nmaximum. destruct (nisnan a) eqn:Ea; [apply xisnan_iff in Ea; subst; rewrite orb_true_r; destruct b; cbn [nleb XR xleb]; rewrite ?xisnan_fin; reflexivity|].
    destruct (nisnan b) eqn:Eb; [apply xisnan_iff in Eb; subst; rewrite ?orb_true_r; destruct a; cbn [nleb XR xleb orb]; rewrite ?xisnan_fin; reflexivity|]. rewrite !orb_false_r.
    apply xisnan_false in Ea, Eb. destruct a as [| | |a], b as [| | |b]; try congruence; try reflexivity.
    destruct (nleb (Fin b : XR) (Fin a)) eqn:E1, (nleb (Fin a : XR) (Fin b)) eqn:E2; try reflexivity.
    - apply xleb_fin in E1, E2. f_equal. lra.
    - apply xleb_fin_false in E1, E2. lra.
  Qed.
  Lemma xmax_fin (a b : R) : nmaximum (Fin a : XR) (Fin b) = Fin (Rmax a b).
  Proof.
    unfold nmaximum. rewrite xisnan_fin, orb_false_r. destruct (nleb (Fin b : XR) (Fin a)) eqn:E.
    - apply xleb_fin in E. f_equal. rewrite Rmax_left; lra.
    - apply xleb_fin_false in E. f_equal. rewrite Rmax_right; lra.
  Qed.
  Lemma xmax_nan_l (a : XR) : nmaximum (XNan : XR) a = XNan.
  Proof. unfold nmaximum. destruct a; reflexivity. Qed.
  Lemma xmax_nan_r (a : XR) : nmaximum a (XNan : XR) = XNan.
  Proof. rewrite xmax_comm. apply xmax_nan_l. Qed.
  Lemma xmax_pinf (a : XR) : a <> XNan -> nmaximum (XPInf : XR) a = XPInf.
  Proof. intros H. unfold nmaximum. destruct a; try reflexivity. congruence. Qed.
  Lemma xmax_minf (a : XR) : nmaximum (XMInf : XR) a = a.
  Proof. unfold nmaximum. destruct a; reflexivity. Qed.
  Lemma xmax_nonnan (a b : XR) : a <> XNan -> b <> XNan -> nmaximum a b <> XNan.
  Proof. intros Ha Hb. unfold nmaximum. destruct (nleb b a || nisnan a); assumption. Qed.
  Lemma xmax_assoc (a b c : XR) : nmaximum (nmaximum a b) c = nmaximum a (nmaximum b c).
  Proof.
    destruct (nisnan a) eqn:Ea; [apply xisnan_iff in Ea; subst; rewrite !xmax_nan_l; reflexivity|].
    destruct (nisnan b) eqn:Eb; [apply xisnan_iff in Eb; subst; rewrite xmax_nan_r, !xmax_nan_l, xmax_nan_r; reflexivity|].
    destruct (nisnan c) eqn:Ec; [apply xisnan_iff in Ec; subst; rewrite !xmax_nan_r; reflexivity|].
    apply xisnan_false in Ea, Eb, Ec.
    assert (PA : forall x y : XR, x <> XNan -> y <> XNan -> nmaximum (nmaximum (XPInf : XR) x) y = nmaximum (XPInf : XR) (nmaximum x y)).
    { intros x y Hx Hy. rewrite (xmax_pinf x Hx), (xmax_pinf y Hy), xmax_pinf by (apply xmax_nonnan; assumption). reflexivity. }
    destruct a as [| | |a]; try congruence; [apply PA; assumption|rewrite !xmax_minf; reflexivity|].
    destruct b as [| | |b]; try congruence.
    { rewrite (xmax_pinf c Ec), (xmax_comm (Fin a : XR) (XPInf : XR)), (xmax_pinf (Fin a : XR)) by discriminate. exact (xmax_pinf c Ec). }
    { rewrite (xmax_comm (Fin a : XR) (XMInf : XR)), !xmax_minf. reflexivity. }
    destruct c as [| | |c]; try congruence.
    { rewrite xmax_fin, (xmax_comm (Fin b : XR) (XPInf : XR)), (xmax_comm (Fin (Rmax a b) : XR)), (xmax_pinf (Fin b : XR)), (xmax_comm (Fin a : XR)), !xmax_pinf by discriminate. reflexivity. }
    { rewrite xmax_fin, (xmax_comm (Fin b : XR) (XMInf : XR)), (xmax_comm (Fin (Rmax a b) : XR)), !xmax_minf, xmax_fin. reflexivity. }
    rewrite !xmax_fin, Rmax_assoc. reflexivity.
  Qed.
  Lemma arr_npmax (l : list XR) : length l = k -> npmax (arranged p l) = npmax l.
  Proof.
    intros Hl. pose proof (arr_perm l Hl) as P. destruct l as [|x l]; [apply Permutation_sym, Permutation_nil in P; rewrite P; reflexivity|].
    destruct (arranged p (x :: l)) as [|y l'] eqn:E; [apply Permutation_nil in P; discriminate|]. cbn [npmax]. f_equal.
    apply (fold_perm1 nmaximum xmax_comm xmax_assoc). exact P.
  Qed.
  Lemma arr_vsum (l : list XR) : length l = k -> vsum (arranged p l) = vsum l.
  Proof. intros Hl. unfold vsum. apply (fold_perm nadd xadd_comm xadd_assoc). apply arr_perm. exact Hl. Qed.
  Lemma arr_vnorm (l : list XR) : length l = k -> vnorm (arranged p l) = vnorm l.
  Proof. intros Hl. unfold vnorm. rewrite <- arr_map, arr_vsum by (rewrite map_length; exact Hl). reflexivity. Qed.
End Order.
