(** * Exact extended reals: the idealised float64 used for arithmetic theorems. *)
From Coq Require Import ZArith List Bool Lia Reals Lra.
From Verif Require Import Num.
Import ListNotations.

Inductive xr : Type := XNan | XPInf | XMInf | Fin (r : R).

Definition rleb (a b : R) : bool := if Rle_dec a b then true else false.
Definition rltb (a b : R) : bool := if Rlt_dec a b then true else false.
Definition reqb (a b : R) : bool := if Req_EM_T a b then true else false.

Lemma rleb_true a b : rleb a b = true <-> (a <= b)%R.
Proof. unfold rleb. destruct (Rle_dec a b); split; auto; discriminate. Qed.
Lemma rleb_false a b : rleb a b = false <-> (b < a)%R.
Proof. unfold rleb. destruct (Rle_dec a b); split; intros; auto; try discriminate; lra. Qed.
Lemma rltb_true a b : rltb a b = true <-> (a < b)%R.
Proof. unfold rltb. destruct (Rlt_dec a b); split; auto; discriminate. Qed.
Lemma rltb_false a b : rltb a b = false <-> (b <= a)%R.
Proof. unfold rltb. destruct (Rlt_dec a b); split; intros; auto; try discriminate; lra. Qed.
Lemma reqb_true a b : reqb a b = true <-> a = b.
Proof. unfold reqb. destruct (Req_EM_T a b); split; auto; discriminate. Qed.
Lemma reqb_false a b : reqb a b = false <-> a <> b.
Proof. unfold reqb. destruct (Req_EM_T a b); split; intros; auto; try discriminate; contradiction. Qed.

Definition xsign (r : R) : comparison :=
  if Rlt_dec r 0 then Lt else if Rlt_dec 0 r then Gt else Eq.
Definition xinf_of (c : comparison) : xr :=
  match c with Gt => XPInf | Lt => XMInf | Eq => XNan end.

Definition xadd (a b : xr) : xr :=
  match a, b with
  | XNan, _ | _, XNan => XNan
  | XPInf, XMInf | XMInf, XPInf => XNan
  | XPInf, _ | _, XPInf => XPInf
  | XMInf, _ | _, XMInf => XMInf
  | Fin x, Fin y => Fin (x + y)
  end.
Definition xopp (a : xr) : xr :=
  match a with XNan => XNan | XPInf => XMInf | XMInf => XPInf | Fin x => Fin (- x) end.
Definition xsub (a b : xr) : xr :=
  match a, b with
  | Fin x, Fin y => Fin (x - y)
  | _, _ => xadd a (xopp b)
  end.
Definition xmul (a b : xr) : xr :=
  match a, b with
  | XNan, _ | _, XNan => XNan
  | Fin x, Fin y => Fin (x * y)
  | XPInf, XPInf | XMInf, XMInf => XPInf
  | XPInf, XMInf | XMInf, XPInf => XMInf
  | XPInf, Fin y | Fin y, XPInf => xinf_of (xsign y)
  | XMInf, Fin y | Fin y, XMInf => xinf_of (CompOpp (xsign y))
  end.
(** Zero is unsigned here: a nonzero number over zero keeps the sign of the
    numerator (numpy's result for a +0 denominator). *)
Definition xdiv (a b : xr) : xr :=
  match a, b with
  | XNan, _ | _, XNan => XNan
  | Fin x, Fin y => if Req_EM_T y 0 then xinf_of (xsign x) else Fin (x / y)
  | Fin _, _ => Fin 0
  | XPInf, Fin y => if Rlt_dec y 0 then XMInf else XPInf
  | XMInf, Fin y => if Rlt_dec y 0 then XPInf else XMInf
  | _, _ => XNan
  end.
Definition xabs (a : xr) : xr :=
  match a with XNan => XNan | Fin x => Fin (Rabs x) | _ => XPInf end.
Definition xsqrt (a : xr) : xr :=
  match a with
  | Fin x => if Rlt_dec x 0 then XNan else Fin (sqrt x)
  | XPInf => XPInf
  | _ => XNan
  end.
Definition xleb (a b : xr) : bool :=
  match a, b with
  | XNan, _ | _, XNan => false
  | XMInf, _ | _, XPInf => true
  | _, XMInf | XPInf, _ => false
  | Fin x, Fin y => rleb x y
  end.
Definition xeqb (a b : xr) : bool := xleb a b && xleb b a.
Definition xltb (a b : xr) : bool := xleb a b && negb (xleb b a).

Definition XR : NumOps :=
  MkNum xr xadd xsub xmul xdiv xabs xsqrt (fun z => Fin (IZR z)) xleb xltb xeqb XNan.

Lemma xisnan_iff (x : XR) : nisnan x = true <-> x = XNan.
Proof.
  unfold nisnan; simpl. unfold xeqb. destruct x as [| | |r]; simpl; split; intros; try discriminate; auto.
  assert (E : rleb r r = true) by (apply rleb_true; lra). rewrite E in H. discriminate.
Qed.
Lemma xisnan_false (x : XR) : nisnan x = false <-> x <> XNan.
Proof.
  rewrite <- not_true_iff_false, xisnan_iff. tauto.
Qed.
Lemma xisnan_fin r : @nisnan XR (Fin r) = false.
Proof. apply xisnan_false. discriminate. Qed.

Lemma XR_ord : OrdLaws XR.
Proof.
  constructor.
  - intros x H. apply xisnan_false in H. destruct x; simpl; auto; try congruence.
    apply rleb_true; lra.
  - intros x y H. apply xisnan_iff in H; subst. reflexivity.
  - intros x y H. apply xisnan_iff in H; subst. destruct x; reflexivity.
  - intros x y z. destruct x, y, z; simpl; auto; try discriminate.
    rewrite !rleb_true. lra.
  - intros x y Hx Hy. apply xisnan_false in Hx. apply xisnan_false in Hy.
    destruct x, y; simpl; auto; try congruence.
    rewrite !rleb_true. lra.
  - reflexivity.
  - reflexivity.
  - apply xisnan_iff. reflexivity.
Qed.

Lemma xleb_fin a b : @nleb XR (Fin a) (Fin b) = true <-> (a <= b)%R.
Proof. apply rleb_true. Qed.
Lemma xleb_fin_false a b : @nleb XR (Fin a) (Fin b) = false <-> (b < a)%R.
Proof. apply rleb_false. Qed.
Lemma xltb_fin a b : @nltb XR (Fin a) (Fin b) = true <-> (a < b)%R.
Proof.
  simpl. unfold xltb; simpl. rewrite andb_true_iff, negb_true_iff, rleb_true, rleb_false. lra.
Qed.
Lemma xltb_fin_false a b : @nltb XR (Fin a) (Fin b) = false <-> (b <= a)%R.
Proof.
  rewrite <- not_true_iff_false, xltb_fin. lra.
Qed.
Lemma xdiv_fin a b : b <> 0%R -> xdiv (Fin a) (Fin b) = Fin (a / b).
Proof. intros H. unfold xdiv. destruct (Req_EM_T b 0); [contradiction|reflexivity]. Qed.
Lemma xsqrt_fin a : (0 <= a)%R -> xsqrt (Fin a) = Fin (sqrt a).
Proof. intros H. unfold xsqrt. destruct (Rlt_dec a 0); [lra|reflexivity]. Qed.
