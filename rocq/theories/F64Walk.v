(** * IEEE doubles: many steps towards one point. *)
From Coq Require Import ZArith Reals Floats Lra Bool List Lia.
From Flocq Require Import Core.
From Verif Require Import Num NumF64 Py Np Spec NpFacts F64Sums F64Step SFloat F64Vec.
Import ListNotations.
Local Open Scope R_scope.

Lemma coef_facts n : (1 <= n)%Z -> 0 <= IZR (n - 1) / IZR n /\ 0 <= 1 / IZR n /\ IZR (n - 1) / IZR n + 1 / IZR n = 1.
Proof.
  intros H. assert (P : 1 <= IZR n) by (apply IZR_le; lia). assert (Pm : 0 <= IZR (n - 1)) by (apply IZR_le; lia).
  split; [apply div_nonneg; lra|]. split; [apply div_nonneg; lra|]. rewrite minus_IZR. field. lra.
Qed.
Lemma slack e : (-1000 <= e)%Z -> bpow radix2 (-51) * bpow radix2 (e + 1) + bpow radix2 (-1073) <= bpow radix2 (-49) * bpow radix2 e.
Proof.
  intros He. rewrite <- !bpow_plus. replace (-51 + (e + 1))%Z with (e - 50)%Z by lia. replace (-49 + e)%Z with (1 + (e - 50))%Z by lia.
  rewrite (bpow_plus radix2 1). change (bpow radix2 1) with 2. assert (bpow radix2 (-1073) <= bpow radix2 (e - 50)) by (apply bpow_le; lia). lra.
Qed.
Lemma t_small t : 0 <= t <= bpow radix2 49 -> 0 <= t * bpow radix2 (-49) <= 1.
Proof.
  intros [A B]. split; [apply Rmult_le_pos; auto; apply bpow_ge_0|].
  replace 1 with (bpow radix2 49 * bpow radix2 (-49)) by (rewrite <- bpow_plus; reflexivity). apply Rmult_le_compat_r; auto. apply bpow_ge_0.
Qed.
Lemma bpow_S e : bpow radix2 (e + 1) = 2 * bpow radix2 e.
Proof. rewrite Z.add_comm, bpow_plus. reflexivity. Qed.

(** One step from a number within 2^(e+1) towards one within 2^e. *)
Lemma step_err n e (x b : F64) : (1 <= n <= 2 ^ 53)%Z -> (-1000 <= e <= 1019)%Z -> ffin x -> ffin b ->
  Rabs (fval x) <= bpow radix2 (e + 1) -> Rabs (fval b) <= bpow radix2 (e + 1) ->
  ffin (fstep n x b) /\
  Rabs (fval (fstep n x b) - (IZR (n - 1) / IZR n * fval x + 1 / IZR n * fval b)) <= bpow radix2 (-49) * bpow radix2 e.
Proof.
  intros Hn He Fx Fb Bx Bb. assert (B1 : bpow radix2 (e + 1) <= bpow radix2 1020) by (apply bpow_le; lia).
  destruct (fstep_close n x b Hn Fx Fb) as [G E]; try lra. split; auto.
  destruct (coef_facts n) as (C1 & C2 & C3); [lia|]. set (c1 := IZR (n - 1) / IZR n) in *. set (c2 := 1 / IZR n) in *.
  assert (T : c1 * Rabs (fval x) + c2 * Rabs (fval b) <= bpow radix2 (e + 1)) by nra.
  eapply Rle_trans; [exact E|]. eapply Rle_trans; [|apply slack; lia]. apply Rplus_le_compat_r. apply Rmult_le_compat_l; [apply bpow_ge_0|auto].
Qed.

(** After [t] of [n] steps from [a] to [b]. *)
Definition walked (n t : Z) (e : Z) (a b x : F64) : Prop :=
  ffin x /\ Rabs (fval x - ((1 - IZR t / IZR n) * fval a + IZR t / IZR n * fval b)) <= IZR t * bpow radix2 (-49) * bpow radix2 e.
Lemma walk_start n e (a b : F64) : ffin a -> walked n 0 e a b a.
Proof.
  intros Fa. split; auto. unfold Rdiv. rewrite !Rmult_0_l. replace (fval a - _) with 0 by ring. rewrite Rabs_R0. lra.
Qed.
Lemma walk_bound n t e (a b x : F64) : (0 <= t <= n)%Z -> (1 <= n <= 2 ^ 49)%Z ->
  Rabs (fval a) <= bpow radix2 e -> Rabs (fval b) <= bpow radix2 e -> walked n t e a b x -> Rabs (fval x) <= bpow radix2 (e + 1).
Proof.
  intros Ht Hn Ba Bb [Fx Hx].
  assert (Pn : 1 <= IZR n) by (apply IZR_le; lia). assert (Pt : 0 <= IZR t) by (apply IZR_le; lia). assert (Ptn : IZR t <= IZR n) by (apply IZR_le; lia).
  assert (T0 : 0 <= IZR t / IZR n) by (apply div_nonneg; lra).
  assert (T1 : IZR t / IZR n <= 1) by (apply Rmult_le_reg_r with (IZR n); [lra|]; unfold Rdiv; rewrite Rmult_assoc, Rinv_l; lra).
  set (c := IZR t / IZR n) in *.
  assert (B : Rabs ((1 - c) * fval a + c * fval b) <= bpow radix2 e).
  { eapply Rle_trans; [apply Rabs_triang|]. rewrite !Rabs_mult, (Rabs_pos_eq c), (Rabs_pos_eq (1 - c)) by lra. nra. }
  assert (S : 0 <= IZR t * bpow radix2 (-49) <= 1).
  { apply t_small. split; auto. apply (Rle_trans _ (IZR n)); auto. change (bpow radix2 49) with (IZR (2 ^ 49)). apply IZR_le. lia. }
  rewrite bpow_S. pose proof (bpow_ge_0 radix2 e).
  replace (fval x) with (((1 - c) * fval a + c * fval b) + (fval x - ((1 - c) * fval a + c * fval b))) by ring.
  eapply Rle_trans; [apply Rabs_triang|]. nra.
Qed.
Lemma walk_next n t e (a b x : F64) : (0 <= t < n)%Z -> (1 <= n <= 2 ^ 49)%Z -> (-1000 <= e <= 1019)%Z -> ffin b ->
  Rabs (fval a) <= bpow radix2 e -> Rabs (fval b) <= bpow radix2 e ->
  walked n t e a b x -> walked n (t + 1) e a b (fstep (n - t) x b).
Proof.
  intros Ht Hn He Fb Ba Bb Hw. assert (Bx : Rabs (fval x) <= bpow radix2 (e + 1)) by (apply (walk_bound n t e a b); auto; lia).
  destruct Hw as [Fx Hx].
  assert (Bb' : Rabs (fval b) <= bpow radix2 (e + 1)) by (eapply Rle_trans; [exact Bb|apply bpow_le; lia]).
  destruct (step_err (n - t) e x b) as [G E]; auto; [lia|]. split; auto.
  destruct (coef_facts (n - t)) as (C1 & C2 & C3); [lia|].
  assert (Pn : 1 <= IZR n) by (apply IZR_le; lia). assert (Pm : 1 <= IZR (n - t)) by (apply IZR_le; lia).
  set (c1 := IZR (n - t - 1) / IZR (n - t)) in *. set (c2 := 1 / IZR (n - t)) in *.
  set (X := (1 - IZR t / IZR n) * fval a + IZR t / IZR n * fval b) in *.
  assert (EQ : (1 - IZR (t + 1) / IZR n) * fval a + IZR (t + 1) / IZR n * fval b = c1 * X + c2 * fval b).
  { unfold c1, c2, X. rewrite !minus_IZR, plus_IZR in *. field. split; lra. }
  rewrite EQ. replace (fval (fstep (n - t) x b) - (c1 * X + c2 * fval b)) with ((fval (fstep (n - t) x b) - (c1 * fval x + c2 * fval b)) + c1 * (fval x - X)) by ring.
  eapply Rle_trans; [apply Rabs_triang|]. rewrite Rabs_mult, (Rabs_pos_eq c1) by auto. rewrite plus_IZR.
  assert (c1 <= 1) by lra. pose proof (Rabs_pos (fval x - X)).
  assert (c1 * Rabs (fval x - X) <= Rabs (fval x - X)) by nra. lra.
Qed.

(** The same, componentwise. *)
Definition walked_vec (n t e : Z) (a b v : list F64) : Prop :=
  length a = length v /\ length b = length v /\
  forall j x y z, nth_error a j = Some x -> nth_error b j = Some y -> nth_error v j = Some z -> walked n t e x y z.
Lemma walkv_start n e (a b : list F64) : length a = length b -> fin_below e a -> walked_vec n 0 e a b a.
Proof.
  intros L Ha. split; auto. split; auto. intros j x y z Hx _ Hz. rewrite Hx in Hz. injection Hz as <-. apply walk_start. apply (within_nth _ _ _ _ Ha Hx).
Qed.
Lemma nth_some {A B} (l : list A) (m : list B) j x : length l = length m -> nth_error l j = Some x -> exists y, nth_error m j = Some y.
Proof. intros L H. assert (j < length l)%nat by (apply nth_error_Some; congruence). destruct (nth_error m j) eqn:E; eauto. apply nth_error_None in E. lia. Qed.
Lemma walkv_below n t e (a b v : list F64) : (0 <= t <= n)%Z -> (1 <= n <= 2 ^ 49)%Z -> fin_below e a -> fin_below e b ->
  walked_vec n t e a b v -> fin_below (e + 1) v.
Proof.
  intros Ht Hn Ha Hb (La & Lb & H). apply Forall_forall. intros z Hz. apply In_nth_error in Hz. destruct Hz as (j & Hz).
  destruct (nth_some v a j z (eq_sym La) Hz) as (x & Hx). destruct (nth_some v b j z (eq_sym Lb) Hz) as (y & Hy).
  assert (W := H j x y z Hx Hy Hz). split; [apply W|]. apply (walk_bound n t e x y); auto.
  - apply (within_nth _ _ _ _ Ha Hx).
  - apply (within_nth _ _ _ _ Hb Hy).
Qed.
Lemma zipw_nth_inv {A B C} (f : A -> B -> C) (p : list A) (z : list B) j c : nth_error (zipw f p z) j = Some c ->
  exists a b, nth_error p j = Some a /\ nth_error z j = Some b /\ c = f a b.
Proof.
  revert p z. induction j as [|j IH]; intros [|x p] [|y z] H; try discriminate; cbn in *.
  - injection H as <-. eauto.
  - apply IH; auto.
Qed.
Lemma walkv_next n t e (a b v : list F64) : (0 <= t < n)%Z -> (1 <= n <= 2 ^ 49)%Z -> (-1000 <= e <= 1019)%Z -> fin_below e a -> fin_below e b ->
  walked_vec n t e a b v -> walked_vec n (t + 1) e a b (zipw (fstep (n - t)) v b).
Proof.
  intros Ht Hn He Ha Hb (La & Lb & H). unfold walked_vec. rewrite zipw_len by auto. split; auto. split; auto.
  intros j x y z Hx Hy Hz. apply zipw_nth_inv in Hz. destruct Hz as (w & y' & Hw & Hy' & ->). pose proof (eq_trans (eq_sym Hy) Hy') as E. injection E as <-.
  destruct (within_nth _ _ _ _ Ha Hx) as [Fx Bx]. destruct (within_nth _ _ _ _ Hb Hy) as [Fy By]. apply walk_next; auto. apply (H j); auto.
Qed.
(** Any sequence of steps from below 2^e towards numbers below 2^e: after [t] steps. *)
Definition grown (t e : Z) (v : list F64) : Prop :=
  Forall (fun x => ffin x /\ Rabs (fval x) <= (1 + IZR t * bpow radix2 (-49)) * bpow radix2 e) v.
Lemma grown_below t e v : (0 <= t <= 2 ^ 49)%Z -> grown t e v -> fin_below (e + 1) v.
Proof.
  intros Ht H. eapply Forall_impl; [|exact H]. cbn beta. intros x [A B]. split; auto. eapply Rle_trans; [exact B|]. rewrite bpow_S.
  apply Rmult_le_compat_r; [apply bpow_ge_0|]. assert (0 <= IZR t * bpow radix2 (-49) <= 1); [|lra].
  apply t_small. split; [apply IZR_le; lia|]. change (bpow radix2 49) with (IZR (2 ^ 49)). apply IZR_le. lia.
Qed.
Lemma grown_0 t e v : (0 <= t)%Z -> fin_below e v -> grown t e v.
Proof.
  intros Ht H. eapply Forall_impl; [|exact H]. cbn beta. intros x [A B]. split; auto. eapply Rle_trans; [exact B|].
  assert (0 <= IZR t) by (apply IZR_le; lia). pose proof (bpow_ge_0 radix2 (-49)). pose proof (bpow_ge_0 radix2 e).
  assert (0 <= IZR t * bpow radix2 (-49)) by (apply Rmult_le_pos; auto). assert (0 <= IZR t * bpow radix2 (-49) * bpow radix2 e) by (apply Rmult_le_pos; auto). lra.
Qed.
Lemma grown_next n t e (v b : list F64) : (0 <= t < 2 ^ 49)%Z -> (1 <= n <= 2 ^ 53)%Z -> (-1000 <= e <= 1019)%Z -> length v = length b ->
  grown t e v -> fin_below e b -> grown (t + 1) e (zipw (fstep n) v b).
Proof.
  intros Ht Hn He L Hv Hb. assert (Hv' := grown_below t e v ltac:(lia) Hv). apply Forall_forall. intros z Hz. apply In_nth_error in Hz. destruct Hz as (j & Hz).
  apply zipw_nth_inv in Hz. destruct Hz as (x & y & Hx & Hy & ->).
  destruct (within_nth _ _ _ _ Hb Hy) as [Fy By]. destruct (within_nth _ _ _ _ Hv' Hx) as [Fx Bx].
  assert (By' : Rabs (fval y) <= bpow radix2 (e + 1)) by (eapply Rle_trans; [exact By|apply bpow_le; lia]).
  assert (Gx : Rabs (fval x) <= (1 + IZR t * bpow radix2 (-49)) * bpow radix2 e).
  { unfold grown in Hv. rewrite Forall_forall in Hv. apply Hv. eapply nth_error_In; eauto. }
  destruct (step_err n e x y) as [G E]; auto. split; auto.
  destruct (coef_facts n) as (C1 & C2 & C3); [lia|]. set (c1 := IZR (n - 1) / IZR n) in *. set (c2 := 1 / IZR n) in *.
  assert (T0 : 0 <= IZR t * bpow radix2 (-49)) by (apply Rmult_le_pos; [apply IZR_le; lia|apply bpow_ge_0]).
  pose proof (bpow_ge_0 radix2 e).
  assert (B : Rabs (c1 * fval x + c2 * fval y) <= (1 + IZR t * bpow radix2 (-49)) * bpow radix2 e).
  { eapply Rle_trans; [apply Rabs_triang|]. rewrite !Rabs_mult, (Rabs_pos_eq c1), (Rabs_pos_eq c2) by auto.
    assert (Rabs (fval y) <= (1 + IZR t * bpow radix2 (-49)) * bpow radix2 e) by nra. nra. }
  replace (fval (fstep n x y)) with ((c1 * fval x + c2 * fval y) + (fval (fstep n x y) - (c1 * fval x + c2 * fval y))) by ring.
  eapply Rle_trans; [apply Rabs_triang|]. rewrite plus_IZR. lra.
Qed.
