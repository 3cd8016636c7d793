(** * Facts about the numpy layer. *)
From Coq Require Import ZArith List Bool Lia Sorted.
From Verif Require Import Num Py Np Spec.
Import ListNotations.

Lemma map_zipw {A B C D} (f : C -> D) (g : A -> B -> C) a b : map f (zipw g a b) = zipw (fun x y => f (g x y)) a b.
Proof. revert b. induction a as [|x a IH]; intros [|y b]; cbn; [reflexivity..|]. f_equal. apply IH. Qed.
Lemma zipw_length {A B C} (f : A -> B -> C) a b :
  length (zipw f a b) = Nat.min (length a) (length b).
Proof. revert b; induction a; destruct b; simpl; auto. Qed.

Lemma bcast2_eq {A B C} (f : A -> B -> C) a b :
  length a = length b -> bcast2 f a b = Ok (zipw f a b).
Proof. intros H. unfold bcast2. rewrite H, Nat.eqb_refl. reflexivity. Qed.

Lemma map_rseq_ok {A B} (f : A -> B) (l : list A) : rseq (map (fun a => Ok (f a)) l) = Ok (map f l).
Proof. induction l; simpl; auto. rewrite IHl. reflexivity. Qed.

Lemma rseq_map_ext {A B} (f g : A -> res B) l :
  (forall a, In a l -> f a = g a) -> rseq (map f l) = rseq (map g l).
Proof. intros H. f_equal. apply map_ext_in. auto. Qed.

(** argwhere *)
Lemma argwhere_from_spec l : forall i j,
  In j (argwhere_from i l) <-> i <= j /\ nth_error l (j - i) = Some true.
Proof.
  induction l as [|b l IH]; intros i j; simpl.
  - split; [tauto|]. intros [_ H]. destruct (j - i); discriminate.
  - assert (S1 : (S i <= j /\ nth_error l (j - S i) = Some true) <->
                 (i < j /\ nth_error (b :: l) (j - i) = Some true)).
    { split; intros [H1 H2]; (split; [lia|]).
      - replace (j - i) with (S (j - S i)) by lia. exact H2.
      - replace (j - i) with (S (j - S i)) in H2 by lia. exact H2. }
    destruct b; simpl; rewrite IH, S1.
    + split.
      * intros [H|[H1 H2]]; [subst; rewrite Nat.sub_diag; split; auto | split; [lia|auto]].
      * intros [H1 H2]. destruct (Nat.eq_dec i j); [left; auto | right; split; [lia|auto]].
    + split; intros [H1 H2].
      * split; [lia|auto].
      * split; auto. destruct (Nat.eq_dec i j); [|lia]. subst. rewrite Nat.sub_diag in H2. discriminate.
Qed.
Lemma argwhere_spec l j : In j (argwhere l) <-> nth_error l j = Some true.
Proof. unfold argwhere. rewrite argwhere_from_spec, Nat.sub_0_r. intuition lia. Qed.

Lemma argwhere_from_sorted l i : increasing (argwhere_from i l).
Proof.
  revert i. induction l as [|b l IH]; intros i; simpl; [constructor|].
  destruct b; [|apply IH]. constructor; [apply IH|].
  apply Forall_forall. intros j Hj. apply argwhere_from_spec in Hj. lia.
Qed.
Lemma argwhere_sorted l : increasing (argwhere l).
Proof. apply argwhere_from_sorted. Qed.

Lemma idx_list_squeeze l : idx_list (squeeze_idx l) = l.
Proof. destruct l as [|a [|b l]]; reflexivity. Qed.

Lemma F2_impl {A B} (P Q : A -> B -> Prop) l v :
  (forall a b, P a b -> Q a b) -> Forall2 P l v -> Forall2 Q l v.
Proof. intros H. induction 1; constructor; auto. Qed.
Lemma F2_flip {A B} (P : A -> B -> Prop) l v :
  Forall2 P l v -> Forall2 (fun b a => P a b) v l.
Proof. induction 1; constructor; auto. Qed.

(** take *)
Lemma take_ok {A} (m : list A) l v :
  take m l = Ok v <-> Forall2 (fun i x => nth_error m i = Some x) l v.
Proof.
  unfold take. rewrite rseq_map_ok. split; intros H; (eapply F2_impl; [|exact H]);
    intros; apply at_ok; auto.
Qed.
Lemma Forall2_In_r {A B} (P : A -> B -> Prop) l v b :
  Forall2 P l v -> In b v -> exists a, In a l /\ P a b.
Proof.
  induction 1; simpl; [tauto|]. intros [E|E].
  - subst. eauto.
  - destruct (IHForall2 E) as [a [Ha HP]]. eauto.
Qed.
Lemma Forall2_In_l {A B} (P : A -> B -> Prop) l v a :
  Forall2 P l v -> In a l -> exists b, In b v /\ P a b.
Proof.
  induction 1; simpl; [tauto|]. intros [E|E].
  - subst. eauto.
  - destruct (IHForall2 E) as [b [Hb HP]]. eauto.
Qed.
Lemma Forall2_len {A B} (P : A -> B -> Prop) l v : Forall2 P l v -> length l = length v.
Proof. induction 1; simpl; auto. Qed.
Lemma Forall2_nth_l {A B} (P : A -> B -> Prop) l v i a :
  Forall2 P l v -> nth_error l i = Some a -> exists b, nth_error v i = Some b /\ P a b.
Proof.
  intros H. revert i. induction H; intros [|i]; simpl; try discriminate; eauto.
  intros E. inversion E; subst. eauto.
Qed.
Lemma Forall2_nth_r {A B} (P : A -> B -> Prop) l v i b :
  Forall2 P l v -> nth_error v i = Some b -> exists a, nth_error l i = Some a /\ P a b.
Proof.
  intros H. revert i. induction H; intros [|i]; simpl; try discriminate; eauto.
  intros E. inversion E; subst. eauto.
Qed.
Lemma Forall2_from_nth {A B} (P : A -> B -> Prop) l v :
  length l = length v ->
  (forall i a b, nth_error l i = Some a -> nth_error v i = Some b -> P a b) -> Forall2 P l v.
Proof.
  revert v. induction l as [|a l IH]; intros [|b v]; simpl; intros HL H; try discriminate; constructor.
  - apply (H 0); reflexivity.
  - apply IH; [lia|]. intros i. apply (H (S i)).
Qed.
Lemma take_seq_all {A} (m : list A) : take m (seq 0 (length m)) = Ok m.
Proof.
  apply take_ok. apply Forall2_from_nth; [apply seq_length|].
  intros i a b Ha Hb.
  assert (i < length m) by (apply nth_error_Some; congruence).
  rewrite (nth_error_nth' _ 0) in Ha by (rewrite seq_length; lia).
  rewrite seq_nth in Ha by lia. inversion Ha; subst. exact Hb.
Qed.
Lemma take_lt {A} (m : list A) l : Forall (fun i => i < length m) l -> exists v, take m l = Ok v.
Proof.
  intros H. induction H as [|i l Hi Hl [v IH]].
  - exists []. reflexivity.
  - destruct (nth_error m i) eqn:E; [|apply nth_error_None in E; lia].
    exists (a :: v). apply take_ok. constructor; auto. apply take_ok. auto.
Qed.

Section NpFacts.
  Context {N : NumOps} (L : OrdLaws N).
  Notation vec := (list N).
  Implicit Types x y z : N.

  Lemma nminimum_cases x y : nminimum x y = x \/ nminimum x y = y.
  Proof. unfold nminimum. destruct (nleb x y || nisnan x); auto. Qed.
  Lemma nmaximum_cases x y : nmaximum x y = x \/ nmaximum x y = y.
  Proof. unfold nmaximum. destruct (nleb y x || nisnan x); auto. Qed.

  Lemma nminimum_le x y : nisnan x = false -> nisnan y = false ->
    nleb (nminimum x y) x = true /\ nleb (nminimum x y) y = true.
  Proof.
    intros Hx Hy. unfold nminimum. rewrite Hx, orb_false_r.
    destruct (nleb x y) eqn:E.
    - split; auto. apply (ol_refl N L); auto.
    - split; [|apply (ol_refl N L); auto].
      destruct (ol_total N L x y Hx Hy); congruence.
  Qed.
  Lemma nmaximum_le x y : nisnan x = false -> nisnan y = false ->
    nleb x (nmaximum x y) = true /\ nleb y (nmaximum x y) = true.
  Proof.
    intros Hx Hy. unfold nmaximum. rewrite Hx, orb_false_r.
    destruct (nleb y x) eqn:E.
    - split; auto. apply (ol_refl N L); auto.
    - split; [|apply (ol_refl N L); auto].
      destruct (ol_total N L x y Hx Hy); congruence.
  Qed.

  Lemma fold_min_In (a : vec) x : In (fold_left nminimum a x) (x :: a).
  Proof.
    revert x. induction a as [|y a IH]; intros x; simpl; auto.
    destruct (IH (nminimum x y)) as [E|E].
    - rewrite <- E. destruct (nminimum_cases x y) as [E2|E2]; rewrite E2; auto.
    - simpl in E. auto.
  Qed.
  Lemma fold_max_In (a : vec) x : In (fold_left nmaximum a x) (x :: a).
  Proof.
    revert x. induction a as [|y a IH]; intros x; simpl; auto.
    destruct (IH (nmaximum x y)) as [E|E].
    - rewrite <- E. destruct (nmaximum_cases x y) as [E2|E2]; rewrite E2; auto.
    - simpl in E. auto.
  Qed.
  Lemma npmin_In (a : vec) m : npmin a = Ok m -> In m a.
  Proof. destruct a; simpl; [discriminate|]. intros H; inversion H; subst. apply fold_min_In. Qed.
  Lemma npmax_In (a : vec) m : npmax a = Ok m -> In m a.
  Proof. destruct a; simpl; [discriminate|]. intros H; inversion H; subst. apply fold_max_In. Qed.

  Lemma fold_min_le (a : vec) x : nan_free (x :: a) ->
    Forall (fun y => nleb (fold_left nminimum a x) y = true) (x :: a).
  Proof.
    revert x. induction a as [|y a IH]; intros x H; simpl.
    - constructor; auto. apply (ol_refl N L). inversion H; auto.
    - inversion H as [|? ? Hx H']; subst. inversion H' as [|? ? Hy H'']; subst.
      assert (Hm : nisnan (nminimum x y) = false)
        by (destruct (nminimum_cases x y) as [E|E]; rewrite E; auto).
      specialize (IH (nminimum x y) (Forall_cons _ Hm H'')).
      inversion IH as [|? ? I1 I2]; subst.
      destruct (nminimum_le x y Hx Hy) as [A B].
      repeat constructor; auto; eapply (ol_trans N L); eauto.
  Qed.
  Lemma fold_max_ge (a : vec) x : nan_free (x :: a) ->
    Forall (fun y => nleb y (fold_left nmaximum a x) = true) (x :: a).
  Proof.
    revert x. induction a as [|y a IH]; intros x H; simpl.
    - constructor; auto. apply (ol_refl N L). inversion H; auto.
    - inversion H as [|? ? Hx H']; subst. inversion H' as [|? ? Hy H'']; subst.
      assert (Hm : nisnan (nmaximum x y) = false)
        by (destruct (nmaximum_cases x y) as [E|E]; rewrite E; auto).
      specialize (IH (nmaximum x y) (Forall_cons _ Hm H'')).
      inversion IH as [|? ? I1 I2]; subst.
      destruct (nmaximum_le x y Hx Hy) as [A B].
      repeat constructor; auto; eapply (ol_trans N L); eauto.
  Qed.
  Lemma npmin_le (a : vec) m x : nan_free a -> npmin a = Ok m -> In x a -> nleb m x = true.
  Proof.
    destruct a as [|y a]; simpl; [discriminate|]. intros Hf H. inversion H; subst. intros Hx.
    pose proof (fold_min_le a y Hf) as F. rewrite Forall_forall in F. apply F. exact Hx.
  Qed.
  Lemma npmax_ge (a : vec) m x : nan_free a -> npmax a = Ok m -> In x a -> nleb x m = true.
  Proof.
    destruct a as [|y a]; simpl; [discriminate|]. intros Hf H. inversion H; subst. intros Hx.
    pose proof (fold_max_ge a y Hf) as F. rewrite Forall_forall in F. apply F. exact Hx.
  Qed.
  Lemma npmin_nonempty (a : vec) : a <> [] <-> exists m, npmin a = Ok m.
  Proof. destruct a; simpl; split; intros H; eauto; try congruence. destruct H; discriminate. Qed.
  Lemma npmax_nonempty (a : vec) : a <> [] <-> exists m, npmax a = Ok m.
  Proof. destruct a; simpl; split; intros H; eauto; try congruence. destruct H; discriminate. Qed.

  Lemma drop_nan_spec (a : vec) x : In x (drop_nan a) <-> In x a /\ nisnan x = false.
  Proof. unfold drop_nan. rewrite filter_In, negb_true_iff. tauto. Qed.
  Lemma drop_nan_free (a : vec) : nan_free (drop_nan a).
  Proof. apply Forall_forall. intros x H. apply drop_nan_spec in H. tauto. Qed.
  Lemma drop_nan_id (a : vec) : nan_free a -> drop_nan a = a.
  Proof.
    induction 1 as [|x a Hx Ha IH]; simpl; auto. rewrite Hx. simpl. f_equal. exact IH.
  Qed.
  Lemma npnanmin_free (a : vec) : nan_free a -> npnanmin a = npmin a.
  Proof.
    intros H. unfold npnanmin. rewrite (drop_nan_id a H). destruct a; reflexivity.
  Qed.
  Lemma npnanmax_free (a : vec) : nan_free a -> npnanmax a = npmax a.
  Proof.
    intros H. unfold npnanmax. rewrite (drop_nan_id a H). destruct a; reflexivity.
  Qed.
  Lemma npnanmin_cases (a : vec) m : npnanmin a = Ok m ->
    (In m a /\ nisnan m = false /\ forall x, In x a -> nisnan x = false -> nleb m x = true) \/
    (m = nnan /\ forall x, In x a -> nisnan x = true).
  Proof.
    destruct a as [|a0 a']; [discriminate|]. unfold npnanmin. remember (a0 :: a') as a eqn:Ea. clear Ea.
    destruct (npmin (drop_nan a)) as [m'|e] eqn:E; intros H; inversion H; subst.
    - left. pose proof (npmin_In _ _ E) as Hin. apply drop_nan_spec in Hin. destruct Hin as [H1 H2].
      repeat split; auto. intros x Hx Hn. eapply npmin_le; [apply drop_nan_free | exact E |].
      apply drop_nan_spec; auto.
    - right. split; auto. intros x Hx. destruct (nisnan x) eqn:En; auto.
      assert (Hd : In x (drop_nan a)) by (apply drop_nan_spec; auto).
      destruct (drop_nan a) as [|q qs]; simpl in *; [contradiction|discriminate].
  Qed.
  Lemma npnanmax_cases (a : vec) m : npnanmax a = Ok m ->
    (In m a /\ nisnan m = false /\ forall x, In x a -> nisnan x = false -> nleb x m = true) \/
    (m = nnan /\ forall x, In x a -> nisnan x = true).
  Proof.
    destruct a as [|a0 a']; [discriminate|]. unfold npnanmax. remember (a0 :: a') as a eqn:Ea. clear Ea.
    destruct (npmax (drop_nan a)) as [m'|e] eqn:E; intros H; inversion H; subst.
    - left. pose proof (npmax_In _ _ E) as Hin. apply drop_nan_spec in Hin. destruct Hin as [H1 H2].
      repeat split; auto. intros x Hx Hn. eapply npmax_ge; [apply drop_nan_free | exact E |].
      apply drop_nan_spec; auto.
    - right. split; auto. intros x Hx. destruct (nisnan x) eqn:En; auto.
      assert (Hd : In x (drop_nan a)) by (apply drop_nan_spec; auto).
      destruct (drop_nan a) as [|q qs]; simpl in *; [contradiction|discriminate].
  Qed.

  (** nanargmin: the first index of the smallest non-NaN entry. *)
  Definition is_nanargmin (a : vec) (i : nat) : Prop :=
    exists x, nth_error a i = Some x /\ nisnan x = false /\
      (forall j y, nth_error a j = Some y -> nisnan y = false ->
         nleb x y = true /\ (j < i -> nltb x y = true)).

  Lemma nanargmin_from_spec (a : vec) : forall pre best,
    (match best with
     | None => Forall (fun y => nisnan y = true) pre
     | Some (x, i) => nth_error pre i = Some x /\ nisnan x = false /\
                      (forall j y, nth_error pre j = Some y -> nisnan y = false ->
                         nleb x y = true /\ (j < i -> nltb x y = true))
     end) ->
    match nanargmin_from best (length pre) a with
    | None => Forall (fun y => nisnan y = true) (pre ++ a)
    | Some (x, i) => nth_error (pre ++ a) i = Some x /\ nisnan x = false /\
                      (forall j y, nth_error (pre ++ a) j = Some y -> nisnan y = false ->
                         nleb x y = true /\ (j < i -> nltb x y = true))
    end.
  Proof.
    induction a as [|v a IH]; intros pre best Hb; simpl.
    - rewrite app_nil_r. exact Hb.
    - replace (S (length pre)) with (length (pre ++ [v])) by (rewrite app_length; simpl; lia).
      replace (pre ++ v :: a) with ((pre ++ [v]) ++ a) by (rewrite <- app_assoc; reflexivity).
      apply IH.
      assert (Hnew : forall j y, nth_error (pre ++ [v]) j = Some y ->
                (nth_error pre j = Some y /\ j < length pre) \/ (j = length pre /\ y = v)).
      { intros j y H. destruct (Nat.lt_ge_cases j (length pre)) as [Hlt|Hge].
        - rewrite nth_error_app1 in H by auto. auto.
        - right. assert (Hl : j < length (pre ++ [v])) by (apply nth_error_Some; congruence).
          rewrite app_length in Hl; simpl in Hl. assert (j = length pre) by lia. subst.
          rewrite nth_error_app2, Nat.sub_diag in H by lia. inversion H. auto. }
      assert (Hlast : nth_error (pre ++ [v]) (length pre) = Some v)
        by (rewrite nth_error_app2, Nat.sub_diag by lia; reflexivity).
      destruct (nisnan v) eqn:Ev.
      + destruct best as [[x i]|].
        * destruct Hb as [H1 [H2 H3]]. repeat split; auto.
          -- rewrite nth_error_app1; auto. apply nth_error_Some. congruence.
          -- destruct (Hnew _ _ H) as [[H4 H5]|[H4 H5]]; [apply (H3 _ _ H4 H0)|subst; congruence].
          -- destruct (Hnew _ _ H) as [[H4 H5]|[H4 H5]]; [apply (H3 _ _ H4 H0)|subst; congruence].
        * apply Forall_app. split; auto.
      + destruct best as [[x i]|].
        * destruct Hb as [H1 [H2 H3]].
          assert (Hi : i < length pre) by (apply nth_error_Some; congruence).
          destruct (nltb v x) eqn:Elt.
          -- repeat split; auto.
             ++ destruct (Hnew _ _ H) as [[H4 H5]|[H4 H5]].
                ** apply (ltb_true L) in Elt. destruct Elt as [Elt _].
                   eapply (ol_trans N L); [exact Elt|apply (H3 _ _ H4 H0)].
                ** subst. apply (ol_refl N L); auto.
             ++ intros Hj. destruct (Hnew _ _ H) as [[H4 H5]|[H4 H5]]; [|subst; lia].
                eapply (ltb_le_trans L); [exact Elt|apply (H3 _ _ H4 H0)].
          -- repeat split; auto.
             ++ rewrite nth_error_app1; auto.
             ++ destruct (Hnew _ _ H) as [[H4 H5]|[H4 H5]]; [apply (H3 _ _ H4 H0)|].
                subst. apply (ltb_false_notnan L v x); auto.
             ++ intros Hj. destruct (Hnew _ _ H) as [[H4 H5]|[H4 H5]]; [apply (H3 _ _ H4 H0); auto|].
                subst. lia.
        * repeat split; auto.
          -- destruct (Hnew _ _ H) as [[H4 H5]|[H4 H5]].
             ++ rewrite Forall_forall in Hb. apply nth_error_In in H4. apply Hb in H4. congruence.
             ++ subst. apply (ol_refl N L); auto.
          -- intros Hj. destruct (Hnew _ _ H) as [[H4 H5]|[H4 H5]]; [|subst; lia].
             rewrite Forall_forall in Hb. apply nth_error_In in H4. apply Hb in H4. congruence.
  Qed.

  Lemma npnanargmin_ok (a : vec) i : npnanargmin a = Ok i -> is_nanargmin a i.
  Proof.
    unfold npnanargmin. pose proof (nanargmin_from_spec a [] None (Forall_nil _)) as H. simpl in H.
    destruct (nanargmin_from None 0 a) as [[x i']|]; intros E; inversion E; subst.
    exists x. exact H.
  Qed.
  Lemma npnanargmin_raise (a : vec) : (exists e, npnanargmin a = Raise e) <-> Forall (fun y => nisnan y = true) a.
  Proof.
    unfold npnanargmin. pose proof (nanargmin_from_spec a [] None (Forall_nil _)) as H. simpl in H.
    destruct (nanargmin_from None 0 a) as [[x i']|]; split; intros E; eauto.
    - destruct E; discriminate.
    - destruct H as [H1 [H2 _]]. rewrite Forall_forall in E. apply nth_error_In in H1. apply E in H1. congruence.
  Qed.
  Lemma npnanargmin_err (a : vec) e : npnanargmin a = Raise e -> e = ValueErr.
  Proof. unfold npnanargmin. destruct (nanargmin_from None 0 a) as [[]|]; intros H; inversion H; auto. Qed.

  (** argmin on a NaN-free array is the first minimiser. *)
  Lemma argmin_from_spec (a : vec) : forall pre best bi,
    nan_free (pre ++ a) ->
    nth_error pre bi = Some best ->
    (forall j y, nth_error pre j = Some y -> nleb best y = true /\ (j < bi -> nltb best y = true)) ->
    exists x, nth_error (pre ++ a) (argmin_from best bi (length pre) a) = Some x /\
      (forall j y, nth_error (pre ++ a) j = Some y ->
         nleb x y = true /\ (j < argmin_from best bi (length pre) a -> nltb x y = true)).
  Proof.
    induction a as [|v a IH]; intros pre best bi Hf Hb Hmin; simpl.
    - rewrite app_nil_r. eauto.
    - replace (S (length pre)) with (length (pre ++ [v])) by (rewrite app_length; simpl; lia).
      assert (Happ : pre ++ v :: a = (pre ++ [v]) ++ a) by (rewrite <- app_assoc; reflexivity).
      rewrite Happ in *.
      assert (Hff := Hf). unfold nan_free in Hff. rewrite Forall_app in Hff. destruct Hff as [Hf1 _].
      rewrite Forall_app in Hf1. destruct Hf1 as [Hf1 Hfv]. inversion Hfv as [|? ? Hv _]; subst.
      assert (Hbn : nisnan best = false).
      { rewrite Forall_forall in Hf1. apply Hf1. eapply nth_error_In; eauto. }
      rewrite Hbn, Hv. simpl. rewrite orb_false_r.
      assert (Hnew : forall j y, nth_error (pre ++ [v]) j = Some y ->
                (nth_error pre j = Some y /\ j < length pre) \/ (j = length pre /\ y = v)).
      { intros j y H. destruct (Nat.lt_ge_cases j (length pre)) as [Hlt|Hge].
        - rewrite nth_error_app1 in H by auto. auto.
        - right. assert (Hl : j < length (pre ++ [v])) by (apply nth_error_Some; congruence).
          rewrite app_length in Hl; simpl in Hl. assert (j = length pre) by lia. subst.
          rewrite nth_error_app2, Nat.sub_diag in H by lia. inversion H. auto. }
      assert (Hbi : bi < length pre) by (apply nth_error_Some; congruence).
      destruct (nltb v best) eqn:Elt; apply IH; auto.
      + rewrite nth_error_app2, Nat.sub_diag by lia. reflexivity.
      + intros j y H. destruct (Hnew _ _ H) as [[H4 H5]|[H4 H5]].
        * split.
          -- apply (ltb_true L) in Elt. destruct Elt as [Elt _].
             eapply (ol_trans N L); [exact Elt | apply (Hmin _ _ H4)].
          -- intros _. eapply (ltb_le_trans L); [exact Elt | apply (Hmin _ _ H4)].
        * subst. split; [apply (ol_refl N L); auto | lia].
      + rewrite nth_error_app1; auto.
      + intros j y H. destruct (Hnew _ _ H) as [[H4 H5]|[H4 H5]].
        * apply (Hmin _ _ H4).
        * subst. split; [apply (ltb_false_notnan L v best); auto | lia].
  Qed.
  Lemma npargmin_ok (a : vec) i : nan_free a -> npargmin a = Ok i ->
    exists x, nth_error a i = Some x /\
      forall j y, nth_error a j = Some y -> nleb x y = true /\ (j < i -> nltb x y = true).
  Proof.
    destruct a as [|v a]; simpl; [discriminate|]. intros Hf H. inversion H; subst.
    pose proof (argmin_from_spec a [v] v 0 Hf eq_refl) as Hs. simpl in Hs. apply Hs.
    intros [|[|j]] y E; simpl in E; inversion E; subst; [|..].
    split; [|lia]. apply (ol_refl N L). inversion Hf; auto.
  Qed.
  Lemma argmin_from_lt (a : vec) : forall best bi i, bi < i -> argmin_from best bi i a < i + length a.
  Proof.
    induction a as [|v a IH]; intros best bi i H; simpl; [lia|].
    destruct (negb (nisnan best) && (nltb v best || nisnan v)).
    - specialize (IH v i (S i)). lia.
    - specialize (IH best bi (S i)). lia.
  Qed.
  Lemma npargmin_lt (a : vec) i : npargmin a = Ok i -> i < length a.
  Proof.
    destruct a as [|v a]; simpl; [discriminate|]. intros H. inversion H.
    pose proof (argmin_from_lt a v 0 1). lia.
  Qed.

  (** comparisons of rows *)
  Lemma forallb_id_zipw {A B} (f : A -> B -> bool) a b :
    length a = length b ->
    forallb (fun c => c) (zipw f a b) = true <-> Forall2 (fun u v => f u v = true) a b.
  Proof.
    revert b. induction a as [|u a IH]; intros [|v b]; simpl; intros HL; try discriminate.
    - split; auto.
    - rewrite andb_true_iff, IH by lia. split.
      + intros [H1 H2]. constructor; auto.
      + intros H; inversion H; auto.
  Qed.
  Lemma existsb_id_zipw {A B} (f : A -> B -> bool) a b :
    existsb (fun c => c) (zipw f a b) = true <->
    exists i u v, nth_error a i = Some u /\ nth_error b i = Some v /\ f u v = true.
  Proof.
    revert b. induction a as [|u a IH]; intros b.
    - simpl. split; [discriminate|]. intros (i & u & v & H & _). destruct i; discriminate.
    - destruct b as [|v b].
      + simpl. split; [discriminate|]. intros (i & u' & v & _ & H & _). destruct i; discriminate.
      + simpl. rewrite orb_true_iff, IH. split.
        * intros [H|(i & u' & v' & H)]; [exists 0, u, v; auto | exists (S i), u', v'; auto].
        * intros (i & u' & v' & H1 & H2 & H3). destruct i.
          -- inversion H1; inversion H2; subst. auto.
          -- right. exists i, u', v'. auto.
  Qed.
  Lemma all_le_iff (a b : vec) : length a = length b -> (all_le a b = true <-> vle a b).
  Proof. apply forallb_id_zipw. Qed.
  Lemma all_ge_iff (a b : vec) : length a = length b -> (all_ge a b = true <-> vle b a).
  Proof.
    intros H. unfold all_ge. rewrite forallb_id_zipw by auto. unfold vle.
    split; intros F; apply F2_flip in F; exact F.
  Qed.

  (** all components of [a] except the r-th are <= those of [b] *)
  Lemma drop_at_length {A} r (v : list A) : r < length v -> length (drop_at r v) = length v - 1.
  Proof.
    revert r. induction v as [|x v IH]; intros r H; simpl in *; [lia|].
    destruct r; simpl; [lia|]. rewrite IH by lia. lia.
  Qed.
  Lemma drop_at_nth {A} r (v : list A) i :
    nth_error (drop_at r v) i = if i <? r then nth_error v i else nth_error v (S i).
  Proof.
    revert r i. induction v as [|x v IH]; intros r i.
    - destruct (i <? r), r, i; reflexivity.
    - destruct r as [|r]; [reflexivity|]. cbn [drop_at]. destruct i as [|i]; [reflexivity|].
      cbn [nth_error]. rewrite IH. change (S i <? S r) with (i <? r). reflexivity.
  Qed.
  Lemma vle_nth (a b : vec) : vle a b <-> length a = length b /\
    forall i x y, nth_error a i = Some x -> nth_error b i = Some y -> nleb x y = true.
  Proof.
    split.
    - intros H. split; [apply (Forall2_len _ _ _ H)|]. intros i x y Hx Hy.
      destruct (Forall2_nth_l _ _ _ _ _ H Hx) as [y' [Hy' HP]]. congruence.
    - intros [HL H]. apply Forall2_from_nth; auto.
  Qed.
  Lemma all_le_drop_iff r (a b : vec) : length a = length b -> r < length a ->
    all_le (drop_at r a) (drop_at r b) = true <->
    (forall i x y, i <> r -> nth_error a i = Some x -> nth_error b i = Some y -> nleb x y = true).
  Proof.
    intros HL Hr.
    rewrite all_le_iff by (rewrite !drop_at_length; lia).
    rewrite vle_nth. split.
    - intros [_ H] i x y Hi Hx Hy. destruct (Nat.lt_ge_cases i r) as [Hlt|Hge].
      + apply (H i); rewrite drop_at_nth, (proj2 (Nat.ltb_lt _ _) Hlt); auto.
      + assert (i = S (i - 1)) as Ei by lia.
        apply (H (i - 1)); rewrite drop_at_nth, (proj2 (Nat.ltb_ge (i-1) r)) by lia; rewrite <- Ei; auto.
    - intros H. split; [rewrite !drop_at_length; lia|]. intros i x y. rewrite !drop_at_nth.
      destruct (Nat.ltb_spec i r); apply H; lia.
  Qed.
  Lemma vle_trans (a b c : vec) : vle a b -> vle b c -> vle a c.
  Proof.
    intros H. revert c. induction H; intros c H2; inversion H2; subst; constructor; auto.
    - eapply (ol_trans N L); eauto.
    - apply IHForall2; auto.
  Qed.
  Lemma vle_refl (a : vec) : nan_free a -> vle a a.
  Proof. induction 1; constructor; auto. apply (ol_refl N L); auto. Qed.

  (** Decision procedures for the specification vocabulary. *)
  Definition vleb (a b : vec) : bool := Nat.eqb (length a) (length b) && all_le a b.
  Lemma vleb_iff a b : vleb a b = true <-> vle a b.
  Proof.
    unfold vleb. rewrite andb_true_iff, Nat.eqb_eq. split.
    - intros [H1 H2]. apply all_le_iff; auto.
    - intros H. assert (HL := Forall2_len _ _ _ H). split; auto. apply all_le_iff; auto.
  Qed.
  Lemma vleb_false a b : vleb a b = false <-> ~ vle a b.
  Proof. rewrite <- vleb_iff. destruct (vleb a b); split; intros; congruence. Qed.
  Definition mndb (front : list vec) : bool :=
    forallb (fun a => forallb (fun b => negb (vleb a b && negb (vleb b a))) front) front.
  Lemma mndb_ok front : mndb front = true -> mutually_nondominated front.
  Proof.
    unfold mndb. rewrite forallb_forall. intros H a b Ha Hb [H1 H2].
    specialize (H a Ha). rewrite forallb_forall in H. specialize (H b Hb).
    apply vleb_iff in H1. apply vleb_false in H2. rewrite H1, H2 in H. discriminate.
  Qed.
End NpFacts.
