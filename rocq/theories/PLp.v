(** * Linear programs over the reals: an optimum exists (Fourier-Motzkin), and so
      does a solver that is exact and total. *)
From Coq Require Import ZArith List Bool Lia Reals Lra ClassicalEpsilon.
From Verif Require Import Num NumXR Py Np Spec NpFacts XRFacts MParetoNav SParetoNav.
Import ListNotations.
Open Scope R_scope.

(** Rows [(a, v, b)]: a t + v x <= b. *)
Definition frow : Type := (R * list R * R)%type.
Definition fsat (t : R) (x : list R) (r : frow) : Prop := let '(a, v, b) := r in a * t + rdot v x <= b.
Definition fsats t x (S : list frow) : Prop := Forall (fsat t x) S.
Definition fhd (r : frow) : R := let '(_, v, _) := r in hd 0 v.
Definition fdrop (r : frow) : frow := let '(a, v, b) := r in (a, tl v, b).
Fixpoint raxpy (c : R) (a : list R) (d : R) (b : list R) : list R :=
  match a, b with
  | x :: a', y :: b' => (c * x + d * y) :: raxpy c a' d b'
  | _, [] => map (Rmult c) a
  | [], _ => map (Rmult d) b
  end.
(** A row with a positive head and one with a negative head. *)
Definition fmix (p n : frow) : frow :=
  let '(a1, v1, b1) := p in let '(a2, v2, b2) := n in
  (- hd 0 v2 * a1 + hd 0 v1 * a2, raxpy (- hd 0 v2) (tl v1) (hd 0 v1) (tl v2), - hd 0 v2 * b1 + hd 0 v1 * b2).
Definition felim (S : list frow) : list frow :=
  map fdrop (filter (fun r => reqb (fhd r) 0) S) ++
  flat_map (fun p => map (fmix p) (filter (fun r => rltb (fhd r) 0) S)) (filter (fun r => rltb 0 (fhd r)) S).

Lemma rdot_nil_r v : rdot v [] = 0.
Proof. destruct v; reflexivity. Qed.
Lemma rdot_hd v x0 x : rdot v (x0 :: x) = hd 0 v * x0 + rdot (tl v) x.
Proof. destruct v; cbn; lra. Qed.
Lemma rdot_scale c a x : rdot (map (Rmult c) a) x = c * rdot a x.
Proof. revert x. induction a as [|y a IH]; intros [|w x]; cbn; try lra. rewrite IH. lra. Qed.
Lemma raxpy_rdot c a d b x : rdot (raxpy c a d b) x = c * rdot a x + d * rdot b x.
Proof.
  revert b x. induction a as [|y a IH]; intros [|z b] [|w x]; cbn; try lra; rewrite ?rdot_scale, ?IH; lra.
Qed.

(** A number between finitely many lower and upper bounds. *)
Lemma between (L U : list R) : (forall l u, In l L -> In u U -> l <= u) -> exists m, (forall l, In l L -> l <= m) /\ (forall u, In u U -> m <= u).
Proof.
  revert U. induction L as [|l L IH]; intros U H.
  - clear H. induction U as [|u U (m & _ & IH)]; [exists 0; split; intros ? []|]. exists (Rmin u m). split; [intros ? []|].
    intros v [->|Hv]; [apply Rmin_l|]. eapply Rle_trans; [apply Rmin_r|auto].
  - destruct (IH U) as (m & M1 & M2); [intros; apply H; [right|]; auto|]. exists (Rmax l m). split.
    + intros v [->|Hv]; [apply Rmax_l|]. eapply Rle_trans; [|apply Rmax_r]. auto.
    + intros u Hu. apply Rmax_lub; [apply H; [left; reflexivity|exact Hu]|auto].
Qed.

Lemma felim_ok t x S : fsats t x (felim S) <-> exists x0, fsats t (x0 :: x) S.
Proof.
  unfold fsats, felim. rewrite Forall_app. split.
  - intros [HZ HM].
    set (bnd := fun r : frow => let '(a, v, b) := r in (b - a * t - rdot (tl v) x) / hd 0 v).
    destruct (between (map bnd (filter (fun r => rltb (fhd r) 0) S)) (map bnd (filter (fun r => rltb 0 (fhd r)) S))) as (m & M1 & M2).
    { intros l u Hl Hu. apply in_map_iff in Hl. destruct Hl as (n & <- & Hn). apply in_map_iff in Hu. destruct Hu as (p & <- & Hp).
      pose proof Hn as Hn'. pose proof Hp as Hp'. apply filter_In in Hn'. apply filter_In in Hp'. destruct Hn' as [_ Hn']. destruct Hp' as [_ Hp'].
      apply rltb_true in Hn'. apply rltb_true in Hp'.
      assert (Hm : fsat t x (fmix p n)).
      { rewrite Forall_forall in HM. apply HM. apply in_flat_map. exists p. split; [exact Hp|]. apply in_map. exact Hn. }
      destruct p as [[a1 v1] b1], n as [[a2 v2] b2]. cbn in *. rewrite raxpy_rdot in Hm. set (h1 := hd 0 v1) in *. set (h2 := hd 0 v2) in *.
      apply (Rmult_le_reg_r (h1 * - h2)); [nra|].
      replace ((b2 - a2 * t - rdot (tl v2) x) / h2 * (h1 * - h2)) with (- (b2 - a2 * t - rdot (tl v2) x) * h1) by (field; lra).
      replace ((b1 - a1 * t - rdot (tl v1) x) / h1 * (h1 * - h2)) with ((b1 - a1 * t - rdot (tl v1) x) * - h2) by (field; lra). nra. }
    exists m. apply Forall_forall. intros r Hr. destruct r as [[a v] b]. cbn. rewrite rdot_hd.
    destruct (Rtotal_order (hd 0 v) 0) as [Hlt|[Heq|Hgt]].
    + assert (HB : bnd (a, v, b) <= m). { apply M1. apply in_map. apply filter_In. split; [exact Hr|]. apply rltb_true. exact Hlt. }
      cbn in HB. apply (Rmult_le_compat_neg_l (hd 0 v)) in HB; [|lra].
      replace (hd 0 v * ((b - a * t - rdot (tl v) x) / hd 0 v)) with (b - a * t - rdot (tl v) x) in HB by (field; lra). lra.
    + assert (HB : fsat t x (fdrop (a, v, b))). { rewrite Forall_forall in HZ. apply HZ. apply in_map. apply filter_In. split; [exact Hr|]. apply reqb_true. exact Heq. }
      cbn in HB. rewrite Heq. lra.
    + assert (HB : m <= bnd (a, v, b)). { apply M2. apply in_map. apply filter_In. split; [exact Hr|]. apply rltb_true. exact Hgt. }
      cbn in HB. apply (Rmult_le_compat_l (hd 0 v)) in HB; [|lra].
      replace (hd 0 v * ((b - a * t - rdot (tl v) x) / hd 0 v)) with (b - a * t - rdot (tl v) x) in HB by (field; lra). lra.
  - intros (x0 & H). rewrite Forall_forall in H. split; apply Forall_forall; intros r Hr.
    + apply in_map_iff in Hr. destruct Hr as ([[a v] b] & <- & Hr). apply filter_In in Hr. destruct Hr as [Hr He]. apply reqb_true in He. cbn in He.
      specialize (H _ Hr). cbn in H |- *. rewrite rdot_hd, He in H. lra.
    + apply in_flat_map in Hr. destruct Hr as (p & Hp & Hr). apply in_map_iff in Hr. destruct Hr as (n & <- & Hn).
      apply filter_In in Hp. apply filter_In in Hn. destruct Hp as [Hp Hp']. destruct Hn as [Hn Hn']. apply rltb_true in Hp'. apply rltb_true in Hn'.
      pose proof (H _ Hp) as H1. pose proof (H _ Hn) as H2. destruct p as [[a1 v1] b1], n as [[a2 v2] b2]. cbn in *. rewrite raxpy_rdot. rewrite rdot_hd in H1, H2.
      set (h1 := hd 0 v1) in *. set (h2 := hd 0 v2) in *. nra.
Qed.
Fixpoint felims (n : nat) (S : list frow) : list frow := match n with O => S | Datatypes.S n' => felims n' (felim S) end.
Lemma felims_ok n : forall t S, fsats t [] (felims n S) <-> exists x, length x = n /\ fsats t x S.
Proof.
  induction n as [|n IH]; intros t S; cbn [felims].
  - split; [intros H; exists []; auto|]. intros (x & Hx & H). destruct x; [exact H|discriminate].
  - rewrite IH. split.
    + intros (x & Hx & H). apply felim_ok in H. destruct H as (x0 & H). exists (x0 :: x). cbn. auto.
    + intros (x & Hx & H). destruct x as [|x0 x]; [discriminate|]. exists x. split; [cbn in Hx; lia|]. apply felim_ok. eauto.
Qed.

(** A non-empty set of numbers given by such rows that is bounded below has a least element. *)
Lemma least (S : list frow) : (exists t, fsats t [] S) -> (exists low, forall t, fsats t [] S -> low <= t) ->
  exists m, fsats m [] S /\ forall t, fsats t [] S -> m <= t.
Proof.
  intros (t0 & H0) (low & Hlow).
  destruct (completeness (fun y => fsats (- y) [] S)) as (m & M1 & M2).
  - exists (- low). intros y Hy. specialize (Hlow _ Hy). lra.
  - exists (- t0). rewrite Ropp_involutive. exact H0.
  - exists (- m). split.
    + apply Forall_forall. intros [[a v] b] Hr. cbn. rewrite rdot_nil_r, Rplus_0_r.
      destruct (Rle_dec (a * - m) b) as [Hle|Hgt]; [exact Hle|exfalso]. apply Rnot_le_lt in Hgt.
      (* every element of the set satisfies the row, so a < 0 would need larger t *)
      destruct (Rle_dec a 0) as [Ha|Ha].
      * (* all t >= -m; a <= 0 *)
        assert (HU : is_upper_bound (fun y => fsats (- y) [] S) m) by exact M1.
        destruct (Req_dec a 0) as [->|Hn].
        -- unfold fsats in H0. rewrite Forall_forall in H0. specialize (H0 _ Hr). cbn in H0. rewrite rdot_nil_r in H0. lra.
        -- (* t >= b/a for all t in the set, and -m < b/a *)
           assert (HB : is_upper_bound (fun y => fsats (- y) [] S) (- (b / a))).
           { intros y Hy. unfold fsats in Hy. rewrite Forall_forall in Hy. specialize (Hy _ Hr). cbn in Hy. rewrite rdot_nil_r in Hy.
             apply (Rmult_le_reg_r (- a)); [lra|]. replace (- (b / a) * - a) with b by (field; lra). lra. }
           specialize (M2 _ HB). apply (Rmult_le_compat_r (- a)) in M2; [|lra]. replace (- (b / a) * - a) with b in M2 by (field; lra). lra.
      * (* a > 0: t0 >= -m and a t0 <= b *)
        unfold fsats in H0. rewrite Forall_forall in H0. pose proof (H0 _ Hr) as Hx. cbn in Hx. rewrite rdot_nil_r in Hx.
        assert (Hm : - t0 <= m). { apply M1. rewrite Ropp_involutive. apply Forall_forall. exact H0. } nra.
    + intros t Ht. assert (Hm : - t <= m). { apply M1. rewrite Ropp_involutive. exact Ht. } lra.
Qed.

(** Constraints and bounds as rows. *)
Definition lp_rows (c : list R) (A : list (list R)) (b : list R) (bnds : list (option R * option R)) : list frow :=
  (-1, c, 0) :: zipw (fun v bi => (0, v, bi)) A b ++
  concat (zipw (fun i lu => (match fst lu with Some l => [(0, repeat 0 i ++ [-1], - l)] | None => [] end) ++
                            (match snd lu with Some u => [(0, repeat 0 i ++ [1], u)] | None => [] end)) (seq 0 (length bnds)) bnds).
Lemma rdot_unit_pos i w x : rdot (repeat 0 i ++ [w]) x = match nth_error x i with Some y => w * y | None => 0 end.
Proof.
  revert x. induction i as [|i IH]; intros [|y x]; cbn [repeat app rdot nth_error]; try reflexivity.
  - cbn. lra.
  - rewrite IH. destruct (nth_error x i); lra.
Qed.
Lemma bnd_rows t : forall bnds x k0 pre, length pre = k0 -> length x = length bnds ->
  (fsats t (pre ++ x) (concat (zipw (fun i lu => (match fst lu with Some l => [(0, repeat 0 i ++ [-1], - l)] | None => [] end) ++
                            (match snd lu with Some u => [(0, repeat 0 i ++ [1], u)] | None => [] end)) (seq k0 (length bnds)) bnds)) <-> Forall2 within bnds x).
Proof.
  induction bnds as [|lu bnds IH]; intros x k0 pre Hp Hx; destruct x as [|y x]; try discriminate.
  - cbn. split; [constructor|]. intros _. constructor.
  - cbn [length seq zipw concat]. unfold fsats. rewrite Forall_app.
    assert (E : pre ++ y :: x = (pre ++ [y]) ++ x) by (rewrite <- app_assoc; reflexivity). rewrite E.
    cbn in Hx. specialize (IH x (S k0) (pre ++ [y])). unfold fsats in IH. rewrite IH; [|rewrite app_length; cbn; lia|lia].
    assert (Ey : nth_error ((pre ++ [y]) ++ x) k0 = Some y).
    { rewrite <- E, nth_error_app2 by lia. replace (k0 - length pre)%nat with 0%nat by lia. reflexivity. }
    assert (R1 : forall w b, fsat t ((pre ++ [y]) ++ x) (0, repeat 0 k0 ++ [w], b) <-> w * y <= b).
    { intros w b. cbn. rewrite rdot_unit_pos, Ey. split; lra. }
    split.
    + intros [H1 H2]. constructor; [|exact H2]. apply Forall_app in H1. destruct H1 as [H1 H3]. split.
      * intros l El. rewrite El in H1. inversion H1 as [|? ? Hr _]; subst. apply R1 in Hr. lra.
      * intros u Eu. rewrite Eu in H3. inversion H3 as [|? ? Hr _]; subst. apply R1 in Hr. lra.
    + intros H. inversion H as [|? ? ? ? Hw H2]; subst. split; [|exact H2]. destruct Hw as [W1 W2]. apply Forall_app. split.
      * destruct (fst lu) as [l|]; constructor; [|constructor]. apply R1. specialize (W1 _ eq_refl). lra.
      * destruct (snd lu) as [u|]; constructor; [|constructor]. apply R1. specialize (W2 _ eq_refl). lra.
Qed.
Lemma lp_rows_ok c A b bnds t x : length A = length b -> length x = length bnds ->
  (fsats t x (lp_rows c A b bnds) <-> rdot c x <= t /\ feasible A b bnds x).
Proof.
  intros Hab Hx. unfold lp_rows, feasible, fsats. rewrite Forall_cons_iff, Forall_app.
  pose proof (bnd_rows t bnds x 0 [] eq_refl Hx) as HB. cbn [app] in HB. unfold fsats in HB. rewrite HB.
  assert (HA : Forall (fsat t x) (zipw (fun v bi => (0, v, bi)) A b) <-> Forall2 (fun row bi => rdot row x <= bi) A b).
  { clear - Hab. revert b Hab. induction A as [|r A IH]; intros [|bi b] Hab; try discriminate; cbn [zipw].
    - split; constructor.
    - rewrite Forall_cons_iff. cbn in Hab. rewrite IH by lia. cbn. split.
      + intros [H1 H2]. constructor; [lra|exact H2].
      + intros H. inversion H; subst. split; [lra|assumption]. }
  rewrite HA. cbn. split.
  - intros (H1 & H2 & H3). split; [lra|auto].
  - intros (H1 & _ & H2 & H3). split; [lra|auto].
Qed.

(** An optimal solution exists. *)
Theorem lp_attained c A b bnds : (exists x, feasible A b bnds x) -> (exists low, forall x, feasible A b bnds x -> low <= rdot c x) ->
  exists x, optimal c A b bnds x.
Proof.
  intros (x0 & H0) (low & Hlow). assert (Hab : length A = length b) by (destruct H0 as (_ & _ & H); apply Forall2_len in H; exact H).
  assert (HF : forall x, feasible A b bnds x -> length x = length bnds) by (intros x (H & _); exact H).
  destruct (least (felims (length bnds) (lp_rows c A b bnds))) as (m & M1 & M2).
  - exists (rdot c x0). apply felims_ok. exists x0. split; [auto|]. apply lp_rows_ok; auto. split; [lra|exact H0].
  - exists low. intros t Ht. apply felims_ok in Ht. destruct Ht as (x & Hx & Ht). apply lp_rows_ok in Ht; auto. destruct Ht as [Ht Hf]. specialize (Hlow _ Hf). lra.
  - apply felims_ok in M1. destruct M1 as (x & Hx & M1). apply lp_rows_ok in M1; auto. destruct M1 as [M1 Hf]. exists x. split; [exact Hf|].
    intros y Hy. assert (Hm : m <= rdot c y). { apply M2. apply felims_ok. exists y. split; [auto|]. apply lp_rows_ok; auto. split; [lra|exact Hy]. } lra.
Qed.

(** A solver that is exact and total. *)
Definition lp_asks (c : list XR) (A : list (list XR)) (b : list XR) (bnds : list (option XR * option XR)) (x : list R) : Prop :=
  exists c' A' b' bnds', c = xv c' /\ A = xm A' /\ b = xv b' /\ bnds = map xbound bnds' /\ optimal c' A' b' bnds' x.
Definition lp_solver c A b bnds : res (option (list XR)) :=
  match excluded_middle_informative (exists x, lp_asks c A b bnds x) with
  | left H => Ok (Some (xv (proj1_sig (constructive_indefinite_description _ H))))
  | right _ => Ok None
  end.
Lemma xbound_inj a b : map xbound a = map xbound b -> a = b.
Proof.
  revert b. induction a as [|[l u] a IH]; intros [|[l' u'] b] H; try discriminate; [reflexivity|]. cbn in H. injection H as H1 H2 H3. f_equal; [|auto].
  f_equal; [destruct l, l'|destruct u, u']; cbn in *; congruence.
Qed.
Lemma lp_solver_exact : lp_exact lp_solver.
Proof.
  intros c A b bnds x H. unfold lp_solver in H. destruct (excluded_middle_informative _) as [HE|]; [|discriminate].
  destruct (constructive_indefinite_description _ HE) as (r & c' & A' & b' & bn' & E1 & E2 & E3 & E4 & HO). cbn in H. injection H as <-.
  apply xv_inj in E1. apply xm_inj in E2. apply xv_inj in E3. apply xbound_inj in E4. subst. eauto.
Qed.
Lemma lp_solver_total : lp_total lp_solver.
Proof.
  intros c A b bnds HF HB. destruct (lp_attained c A b bnds HF HB) as (x & HO). unfold lp_solver.
  destruct (excluded_middle_informative _) as [HE|HE]; [eauto|]. exfalso. apply HE. exists x, c, A, b, bnds. auto.
Qed.
