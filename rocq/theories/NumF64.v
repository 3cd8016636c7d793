(** * IEEE-754 binary64: Coq's primitive floats (numpy float64). *)
From Coq Require Import ZArith List Bool Lia Floats Uint63.
From Verif Require Import Num.
Import ListNotations.

(** Python int -> float, exact up to 2^53 and correctly rounded below 2^63;
    larger integers are outside the model. *)
Definition f64_ofZ (z : Z) : float :=
  match z with
  | Z0 => 0%float
  | Zpos p => PrimFloat.of_uint63 (Uint63.of_Z (Zpos p))
  | Zneg p => PrimFloat.opp (PrimFloat.of_uint63 (Uint63.of_Z (Zpos p)))
  end.

Definition F64 : NumOps :=
  MkNum float PrimFloat.add PrimFloat.sub PrimFloat.mul PrimFloat.div
        PrimFloat.abs PrimFloat.sqrt f64_ofZ
        PrimFloat.leb PrimFloat.ltb PrimFloat.eqb PrimFloat.nan.


Lemma SFcompare_nan_l b : SFcompare S754_nan b = None.
Proof. reflexivity. Qed.
Lemma SFcompare_nan_r a : SFcompare a S754_nan = None.
Proof. destruct a as [ | [] | | ]; reflexivity. Qed.

Lemma SFleb_trans a b c : SFleb a b = true -> SFleb b c = true -> SFleb a c = true.
Proof.
  unfold SFleb.
  destruct a as [sa|sa| |sa ma ea], b as [sb|sb| |sb mb eb], c as [sc|sc| |sc mc ec];
    try destruct sa; try destruct sb; try destruct sc; simpl; intros H1 H2;
    try reflexivity; try discriminate;
    change (Pos.compare_cont Eq) with Pos.compare in *;
    destruct (Z.compare_spec ea eb), (Z.compare_spec eb ec), (Z.compare_spec ea ec);
    try congruence; try lia;
    destruct (Pos.compare_spec ma mb), (Pos.compare_spec mb mc), (Pos.compare_spec ma mc);
    simpl in *; try congruence; try lia.
Qed.

Lemma SFleb_total a b :
  SFleb a a = true -> SFleb b b = true -> SFleb a b = true \/ SFleb b a = true.
Proof.
  unfold SFleb.
  destruct a as [sa|sa| |sa ma ea], b as [sb|sb| |sb mb eb];
    try destruct sa; try destruct sb; simpl; intros H1 H2; auto; try discriminate;
    change (Pos.compare_cont Eq) with Pos.compare in *;
    rewrite (Z.compare_antisym ea eb), (Pos.compare_antisym ma mb);
    destruct (Z.compare ea eb); simpl; auto; destruct (Pos.compare ma mb); simpl; auto.
Qed.

Lemma SFcompare_antisym_eq a b : SFcompare a b = Some Eq -> SFcompare b a = Some Eq.
Proof.
  destruct a as [sa|sa| |sa ma ea], b as [sb|sb| |sb mb eb];
    try destruct sa; try destruct sb; simpl; intros H; auto; try discriminate;
    change (Pos.compare_cont Eq) with Pos.compare in *;
    rewrite (Z.compare_antisym ea eb), (Pos.compare_antisym ma mb);
    destruct (Z.compare ea eb); simpl in *; auto; try discriminate;
    destruct (Pos.compare ma mb); simpl in *; auto; try discriminate.
Qed.

Lemma SFcompare_antisym a b :
  SFcompare b a = match SFcompare a b with
                  | Some c => Some (CompOpp c) | None => None end.
Proof.
  destruct a as [sa|sa| |sa ma ea], b as [sb|sb| |sb mb eb];
    try destruct sa; try destruct sb; simpl; auto;
    change (Pos.compare_cont Eq) with Pos.compare in *;
    rewrite (Z.compare_antisym ea eb), (Pos.compare_antisym ma mb);
    destruct (Z.compare ea eb); simpl in *; auto;
    destruct (Pos.compare ma mb); simpl in *; auto.
Qed.

Lemma SFcompare_refl a : a <> S754_nan -> SFcompare a a = Some Eq.
Proof.
  destruct a as [sa|sa| |sa ma ea]; try destruct sa; simpl; auto; try congruence; intros _;
    change (Pos.compare_cont Eq) with Pos.compare in *;
    rewrite Z.compare_refl, Pos.compare_refl; reflexivity.
Qed.

Lemma SFeqb_self a : SFeqb a a = true <-> a <> S754_nan.
Proof.
  split.
  - intros H E. subst. discriminate.
  - intros H. unfold SFeqb. rewrite SFcompare_refl by assumption. reflexivity.
Qed.

Lemma SFltb_leb a b : SFltb a b = SFleb a b && negb (SFleb b a).
Proof.
  unfold SFltb, SFleb. rewrite (SFcompare_antisym a b).
  destruct (SFcompare a b) as [[]|]; reflexivity.
Qed.
Lemma SFeqb_leb a b : SFeqb a b = SFleb a b && SFleb b a.
Proof.
  unfold SFeqb, SFleb. rewrite (SFcompare_antisym a b).
  destruct (SFcompare a b) as [[]|]; reflexivity.
Qed.

Lemma f64_isnan (x : F64) : nisnan x = true <-> Prim2SF x = S754_nan.
Proof.
  unfold nisnan; simpl. rewrite negb_true_iff, FloatAxioms.eqb_spec.
  destruct (SFeqb (Prim2SF x) (Prim2SF x)) eqn:E.
  - apply SFeqb_self in E. split; [discriminate|contradiction].
  - split; auto. intros _. destruct (Prim2SF x) eqn:E2; auto;
      exfalso; rewrite (proj2 (SFeqb_self _)) in E by discriminate; discriminate.
Qed.

Lemma F64_ord : OrdLaws F64.
Proof.
  constructor; simpl; intros.
  - rewrite FloatAxioms.leb_spec. unfold SFleb. rewrite SFcompare_refl; [reflexivity|].
    intros E. apply f64_isnan in E. congruence.
  - rewrite FloatAxioms.leb_spec. apply f64_isnan in H. rewrite H. reflexivity.
  - rewrite FloatAxioms.leb_spec. apply f64_isnan in H. rewrite H.
    unfold SFleb. rewrite SFcompare_nan_r. reflexivity.
  - rewrite FloatAxioms.leb_spec in *. eapply SFleb_trans; eauto.
  - rewrite !FloatAxioms.leb_spec. apply SFleb_total; unfold SFleb; rewrite SFcompare_refl; auto;
      intros E; apply f64_isnan in E; congruence.
  - rewrite !FloatAxioms.leb_spec, FloatAxioms.ltb_spec. apply SFltb_leb.
  - rewrite !FloatAxioms.leb_spec, FloatAxioms.eqb_spec. apply SFeqb_leb.
  - reflexivity.
Qed.
