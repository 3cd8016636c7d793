(** * Numbers

    The Python code computes with numpy [float64] arrays.  The model is generic
    in the arithmetic: every method model is written once over [NumOps] and is
    used at two instances,

    - [XR]  (NumXR.v): exact extended reals with NaN and the two infinities and
      the IEEE-754 conventions for them, but without rounding, overflow and
      signed zero;
    - [F64] (NumF64.v): Coq's primitive IEEE-754 binary64 floats.

    Theorems that only involve comparisons are proved for every instance that
    satisfies [OrdLaws] (both instances do). *)
From Coq Require Import ZArith List Bool Lia.
Import ListNotations.

Record NumOps : Type := MkNum {
  num :> Type;
  nadd : num -> num -> num;
  nsub : num -> num -> num;
  nmul : num -> num -> num;
  ndiv : num -> num -> num;      (* numpy division: x/0 is inf or NaN, never an exception *)
  nabs : num -> num;
  nsqrt : num -> num;
  nofZ : Z -> num;               (* Python int -> float *)
  nleb : num -> num -> bool;     (* <= : false when an operand is NaN *)
  nltb : num -> num -> bool;     (* <  : false when an operand is NaN *)
  neqb : num -> num -> bool;     (* == : false when an operand is NaN *)
  nnan : num;                    (* np.nan *)
}.

Arguments nadd {_}. Arguments nsub {_}. Arguments nmul {_}. Arguments ndiv {_}.
Arguments nabs {_}. Arguments nsqrt {_}. Arguments nofZ {_}.
Arguments nleb {_}. Arguments nltb {_}. Arguments neqb {_}. Arguments nnan {_}.

(** np.isnan: the only value different from itself. *)
Definition nisnan {N : NumOps} (x : N) : bool := negb (neqb x x).

(** The comparison laws shared by exact extended reals and IEEE doubles:
    a total preorder on the non-NaN values, and NaN compares false. *)
Record OrdLaws (N : NumOps) : Prop := {
  ol_refl  : forall x : N, nisnan x = false -> nleb x x = true;
  ol_nan_l : forall x y : N, nisnan x = true -> nleb x y = false;
  ol_nan_r : forall x y : N, nisnan y = true -> nleb x y = false;
  ol_trans : forall x y z : N, nleb x y = true -> nleb y z = true -> nleb x z = true;
  ol_total : forall x y : N, nisnan x = false -> nisnan y = false ->
             nleb x y = true \/ nleb y x = true;
  ol_ltb   : forall x y : N, nltb x y = nleb x y && negb (nleb y x);
  ol_eqb   : forall x y : N, neqb x y = nleb x y && nleb y x;
  ol_nan   : nisnan (@nnan N) = true;
}.

Section OrdFacts.
  Context {N : NumOps} (L : OrdLaws N).
  Implicit Types x y z : N.

  Lemma leb_notnan_l x y : nleb x y = true -> nisnan x = false.
  Proof.
    intros H. destruct (nisnan x) eqn:E; [|reflexivity].
    rewrite (ol_nan_l N L x y E) in H. discriminate.
  Qed.

  Lemma leb_notnan_r x y : nleb x y = true -> nisnan y = false.
  Proof.
    intros H. destruct (nisnan y) eqn:E; [|reflexivity].
    rewrite (ol_nan_r N L x y E) in H. discriminate.
  Qed.

  Lemma ltb_true x y : nltb x y = true <-> nleb x y = true /\ nleb y x = false.
  Proof.
    rewrite (ol_ltb N L). rewrite andb_true_iff, negb_true_iff. tauto.
  Qed.

  Lemma ltb_false_notnan x y :
    nisnan x = false -> nisnan y = false -> nltb x y = false -> nleb y x = true.
  Proof.
    intros Hx Hy. rewrite (ol_ltb N L).
    destruct (ol_total N L x y Hx Hy) as [H|H]; rewrite H; simpl.
    - rewrite negb_false_iff. auto.
    - auto.
  Qed.

  Lemma leb_false_notnan x y :
    nisnan x = false -> nisnan y = false -> nleb x y = false -> nltb y x = true.
  Proof.
    intros Hx Hy H. rewrite (ol_ltb N L), H.
    destruct (ol_total N L x y Hx Hy) as [H'|H']; [congruence|].
    rewrite H'. reflexivity.
  Qed.

  Lemma ltb_le_trans x y z : nltb x y = true -> nleb y z = true -> nltb x z = true.
  Proof.
    rewrite !ltb_true. intros [H1 H2] H3. split.
    - eapply (ol_trans N L); eauto.
    - destruct (nleb z x) eqn:E; [|reflexivity].
      rewrite (ol_trans N L y z x H3 E) in H2. discriminate.
  Qed.

  Lemma le_ltb_trans x y z : nleb x y = true -> nltb y z = true -> nltb x z = true.
  Proof.
    rewrite !ltb_true. intros H1 [H2 H3]. split.
    - eapply (ol_trans N L); eauto.
    - destruct (nleb z x) eqn:E; [|reflexivity].
      rewrite (ol_trans N L z x y E H1) in H3. discriminate.
  Qed.
End OrdFacts.
