(** * NIMBUS: proofs. *)
From Coq Require Import ZArith List Bool Lia.
From Verif Require Import Num Py Np Spec NpFacts MNimbus SNimbus.
Import ListNotations.

Lemma Forall2_map_r {A B C} (P : A -> C -> Prop) (f : B -> C) l m : Forall2 (fun a b => P a (f b)) l m -> Forall2 P l (map f m).
Proof. induction 1; constructor; auto. Qed.
Lemma Forall2_map_pair {A B C} (P : B -> C -> Prop) (f : A -> B) (g : A -> C) l : Forall (fun a => P (f a) (g a)) l -> Forall2 P (map f l) (map g l).
Proof. induction 1; constructor; auto. Qed.
Lemma Forall2_nth {A B} (P : A -> B -> Prop) l m i b : Forall2 P l m -> nth_error m i = Some b -> exists a, nth_error l i = Some a /\ P a b.
Proof. intros H. revert i. induction H; intros [|i] E; cbn in *; try discriminate; eauto. injection E as <-. eauto. Qed.
Lemma Forall2_nth_l {A B} (P : A -> B -> Prop) l m i a : Forall2 P l m -> nth_error l i = Some a -> exists b, nth_error m i = Some b /\ P a b.
Proof. intros H. revert i. induction H; intros [|i] E; cbn in *; try discriminate; eauto. injection E as <-. eauto. Qed.
Lemma rseq_map_err {A B} (f : A -> res B) l e : rseq (map f l) = Raise e -> exists a, In a l /\ f a = Raise e.
Proof.
  induction l as [|a l IH]; cbn; [discriminate|]. destruct (f a) as [b|e'] eqn:E.
  - destruct (rseq (map f l)); cbn; [discriminate|]. intros H. injection H as ->. destruct (IH eq_refl) as (a' & ? & ?). exists a'. auto.
  - intros H. injection H as ->. eauto.
Qed.
Lemma rseq_map_total {A B} (f : A -> res B) l : (forall a, In a l -> exists b, f a = Ok b) -> exists v, rseq (map f l) = Ok v.
Proof.
  induction l as [|a l IH]; intros H; cbn; [eauto|]. destruct (H a (or_introl eq_refl)) as [b ->].
  destruct IH as [v ->]; [intros; apply H; right; auto|]. cbn. eauto.
Qed.

(** ** Masks *)
Lemma select_app {A} (m1 m2 : list bool) (l1 l2 : list A) : length m1 = length l1 -> select (m1 ++ m2) (l1 ++ l2) = select m1 l1 ++ select m2 l2.
Proof. revert l1. induction m1 as [|b m1 IH]; intros [|a l1] H; try discriminate H; auto. cbn. destruct b; cbn; rewrite IH; auto. Qed.

Lemma py_pos_in len z : (0 <= z < Z.of_nat len)%Z -> py_pos len z = Some (Z.to_nat z).
Proof. apply py_pos_nonneg. Qed.

Lemma keep_mask_others {A} (m : list A) ix : Forall (fun z => (0 <= z < Z.of_nat (length m))%Z) ix ->
  select (keep_mask (length m) ix) m = others m ix.
Proof.
  intros H. unfold keep_mask, others.
  assert (G : forall (m' : list A) i, i + length m' = length m ->
    select (map (fun i => negb (existsb (fun z => match py_pos (length m) z with Some j => Nat.eqb i j | None => false end) ix)) (seq i (length m'))) m' = others_from i m' ix).
  { induction m' as [|a m' IH]; intros i Hi; cbn; auto.
    assert (E : existsb (fun z => match py_pos (length m) z with Some j => Nat.eqb i j | None => false end) ix = existsb (Z.eqb (Z.of_nat i)) ix).
    { clear -H. induction H as [|z ix Hz Hix IH]; cbn; auto. rewrite IH, (py_pos_in _ _ Hz). f_equal.
      destruct (Nat.eqb_spec i (Z.to_nat z)), (Z.eqb_spec (Z.of_nat i) z); auto; lia. }
    rewrite E. cbn in Hi. destruct (existsb (Z.eqb (Z.of_nat i)) ix); cbn; [|f_equal]; apply IH; lia. }
  apply (G m 0). reflexivity.
Qed.

Lemma others_Forall2 {A B} (P : A -> B -> Prop) l m ix : Forall2 P l m -> Forall2 P (others l ix) (others m ix).
Proof. unfold others. intros H. generalize 0. induction H; intros i; cbn; auto. destruct (existsb _ ix); auto. Qed.
Lemma others_length {A B} (l : list A) (m : list B) ix : length l = length m -> length (others l ix) = length (others m ix).
Proof. unfold others. generalize 0. revert m. induction l; intros [|b m] i H; cbn; try discriminate H; auto. destruct (existsb _ ix); cbn; auto. Qed.

Lemma ztake_ok {A} (m : list A) ix r : Forall (fun z => (0 <= z < Z.of_nat (length m))%Z) ix -> (ztake m ix = Ok r <-> rows_at m ix r).
Proof.
  intros H. unfold ztake, rows_at. rewrite rseq_map_ok. revert r. induction H as [|z ix Hz Hix IH]; intros r.
  - split; intros G; inversion G; constructor.
  - assert (E : forall a, py_nth m z = Ok a <-> (0 <= z)%Z /\ nth_error m (Z.to_nat z) = Some a).
    { intros a. rewrite py_nth_nonneg by lia. rewrite at_ok. split; [split; [lia|auto]|tauto]. }
    split; intros G; inversion G; subst; constructor; try apply IH; auto; apply E; auto.
Qed.
Lemma ztake_total {A} (m : list A) ix : Forall (fun z => (0 <= z < Z.of_nat (length m))%Z) ix -> exists r, ztake m ix = Ok r.
Proof.
  intros H. unfold ztake. apply rseq_map_total. intros z Hz. rewrite Forall_forall in H. specialize (H _ Hz).
  rewrite py_nth_nonneg by lia. unfold at_. destruct (nth_error m (Z.to_nat z)) eqn:E; eauto.
  apply nth_error_None in E. lia.
Qed.
Lemma rows_at_Forall2 {A B} (P : A -> B -> Prop) l m ix r r' : Forall2 P l m -> rows_at l ix r -> rows_at m ix r' -> Forall2 P r r'.
Proof.
  intros H G G'. unfold rows_at in *. revert r' G'. induction G as [|z a ix r [Hz Ha] G IH]; intros r' G'; inversion G' as [|? b ? ? [Hz' Hb] G'']; subst; constructor; auto.
  destruct (Forall2_nth _ _ _ _ _ H Hb) as (a' & Ha' & HP). congruence.
Qed.

(** ** min and max of index lists *)
Lemma fold_min_le l x z : In z (x :: l) -> (fold_left Z.min l x <= z)%Z.
Proof.
  revert x z. induction l as [|y l IH]; intros x z; cbn.
  - intros [->|[]]. lia.
  - intros [->|[->|H]].
    + transitivity (Z.min z y); [apply IH; left; auto|lia].
    + transitivity (Z.min x z); [apply IH; left; auto|lia].
    + apply IH. right. auto.
Qed.
Lemma fold_max_ge l x z : In z (x :: l) -> (z <= fold_left Z.max l x)%Z.
Proof.
  revert x z. induction l as [|y l IH]; intros x z; cbn.
  - intros [->|[]]. lia.
  - intros [->|[->|H]].
    + transitivity (Z.max z y); [lia|apply IH; left; auto].
    + transitivity (Z.max x z); [lia|apply IH; left; auto].
    + apply IH. right. auto.
Qed.
Lemma fold_min_in l x : In (fold_left Z.min l x) (x :: l).
Proof.
  revert x. induction l as [|y l IH]; intros x; cbn; [left; auto|].
  destruct (IH (Z.min x y)) as [E|E]; [|right; right; exact E]. rewrite <- E. destruct (Z.min_spec x y) as [[_ ->]|[_ ->]]; auto.
Qed.
Lemma fold_max_in l x : In (fold_left Z.max l x) (x :: l).
Proof.
  revert x. induction l as [|y l IH]; intros x; cbn; [left; auto|].
  destruct (IH (Z.max x y)) as [E|E]; [|right; right; exact E]. rewrite <- E. destruct (Z.max_spec x y) as [[_ ->]|[_ ->]]; auto.
Qed.
Lemma zrange ix n : ix <> [] -> ((n <=? zmax ix)%Z || (zmin ix <? 0)%Z = false <-> Forall (fun z => (0 <= z < n)%Z) ix).
Proof.
  destruct ix as [|x l]; [congruence|]. intros _. cbn [zmax zmin]. rewrite orb_false_iff, Z.leb_gt, Z.ltb_ge, Forall_forall. split.
  - intros [H1 H2] z Hz. pose proof (fold_min_le _ _ _ Hz). pose proof (fold_max_ge _ _ _ Hz). lia.
  - intros H. pose proof (H _ (fold_min_in l x)). pose proof (H _ (fold_max_in l x)). lia.
Qed.

Lemma cls_eqb_eq a b : cls_eqb a b = true <-> a = b.
Proof. destruct a, b; cbn; split; congruence. Qed.
Lemma where_cls_in c cl i : In i (where_cls c cl) <-> nth_error cl i = Some c.
Proof.
  unfold where_cls. rewrite argwhere_spec, nth_error_map. destruct (nth_error cl i) as [c'|]; cbn; [|split; discriminate].
  split; intros H; injection H as H.
  - apply cls_eqb_eq in H. congruence.
  - subst. f_equal. apply cls_eqb_eq. auto.
Qed.
