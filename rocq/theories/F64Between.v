(** * IEEE doubles: the points between two points (C33). *)
From Coq Require Import ZArith Reals Floats Lra Bool List Lia.
From Flocq Require Import Core Relative Plus_error BinarySingleNaN PrimFloat.
From Verif Require Import Num NumF64 Py Np Spec NpFacts XRFacts F64Sums F64Step SFloat F64Vec MNimbus.
Import ListNotations.
Local Open Scope R_scope.
Local Notation rnd := (round radix2 (SpecFloat.fexp FloatOps.prec FloatOps.emax) (round_mode mode_NE)).
Local Notation u := (bpow radix2 (-53)).

Lemma u_tiny : 0 < u /\ u * 1024 <= / 2.
Proof. split; [apply bpow_gt_0|]. change 1024 with (bpow radix2 10). change (/ 2) with (bpow radix2 (-1)). rewrite <- bpow_plus. apply bpow_le. lia. Qed.
Lemma rel_half m x y : (m <= 10)%nat -> rel m x y -> / 2 * Rabs y <= Rabs x <= 2 * Rabs y.
Proof.
  intros Hm H. pose proof u_tiny as [U1 U2]. assert (I : INR m <= 10) by (apply le_INR in Hm; cbn [INR] in Hm; lra).
  pose proof (pos_INR m). assert (E := rel_err m x y ltac:(nra) H). pose proof (Rabs_pos y).
  assert (E' : Rabs (x - y) <= / 2 * Rabs y).
  { eapply Rle_trans; [exact E|]. apply Rmult_le_compat_r; [apply Rabs_pos|]. nra. }
  pose proof (Rabs_triang_inv x y). pose proof (Rabs_triang (x - y) y) as T. replace (x - y + y) with x in T by ring.
  pose proof (Rabs_triang_inv y x) as T2. rewrite <- (Rabs_Ropp (y - x)) in T2. replace (- (y - x)) with (x - y) in T2 by ring. lra.
Qed.
Definition moderate (x : R) : Prop := x = 0 \/ bpow radix2 (-1012) <= Rabs x <= bpow radix2 1010.
Lemma rnd_moderate m x y : (m <= 10)%nat -> rel m x y -> moderate y -> Rabs x <= bpow radix2 1023 /\ rel (m + 1) (rnd x) y.
Proof.
  intros Hm H [->|[B1 B2]].
  - apply rel_0 in H. subst x. rewrite Rabs_R0. split; [apply bpow_ge_0|]. rewrite round_0 by apply valid_rnd_round_mode. apply (rel_le 0); [lia|apply rel_refl].
  - destruct (rel_half m x y Hm H) as [H1 H2]. split.
    + eapply Rle_trans; [exact H2|]. apply Rle_trans with (bpow radix2 1 * bpow radix2 1010); [change (bpow radix2 1) with 2; lra|rewrite <- bpow_plus; apply bpow_le; lia].
    + rewrite Nat.add_comm. eapply rel_trans; [|exact H]. apply rnd_rel1. right. eapply Rle_trans; [|exact H1].
      apply Rle_trans with (bpow radix2 (-1) * bpow radix2 (-1012)); [rewrite <- bpow_plus; apply bpow_le; lia|change (bpow radix2 (-1)) with (/ 2); lra].
Qed.
Lemma fmul_rel m m' (x y : F64) X Y : (m + m' <= 10)%nat -> ffin x -> ffin y -> rel m (fval x) X -> rel m' (fval y) Y -> moderate (X * Y) ->
  ffin (PrimFloat.mul x y) /\ rel (m + m' + 1) (fval (PrimFloat.mul x y)) (X * Y).
Proof.
  intros Hm Fx Fy Hx Hy HM. destruct (rnd_moderate (m + m') (fval x * fval y) (X * Y) Hm (rel_mul _ _ _ _ _ _ Hx Hy) HM) as [B R].
  destruct (f64_mul_err x y Fx Fy B) as [F E]. split; [exact F|]. rewrite E. exact R.
Qed.
Lemma fdiv_rel m m' (x y : F64) X Y : (m + m' <= 10)%nat -> ffin x -> Y <> 0 -> rel m (fval x) X -> rel m' (fval y) Y -> moderate (X / Y) ->
  ffin (PrimFloat.div x y) /\ rel (m + m' + 1) (fval (PrimFloat.div x y)) (X / Y).
Proof.
  intros Hm Fx HY Hx Hy HM. destruct (rnd_moderate (m + m') (fval x / fval y) (X / Y) Hm (rel_div _ _ _ _ _ _ Hx Hy) HM) as [B R].
  destruct (f64_div_err x y Fx (rel_nz _ _ _ Hy HY) B) as [F E]. split; [exact F|]. rewrite E. exact R.
Qed.

(** One component of a point between [a] and [b]; [N] is the norm of the difference. *)
Definition fmid (n i : Z) (N a b : F64) : F64 :=
  PrimFloat.add b (PrimFloat.mul (PrimFloat.mul (f64_ofZ i) (PrimFloat.div N (f64_ofZ (2 + n)))) (PrimFloat.div (PrimFloat.sub a b) N)).
Lemma fmid_close n i (N a b : F64) : (1 <= i <= n)%Z -> (n <= 2 ^ 50)%Z -> ffin a -> ffin b -> Rabs (fval a) <= bpow radix2 500 -> Rabs (fval b) <= bpow radix2 500 ->
  fval a = fval b \/ bpow radix2 (-500) <= Rabs (fval a - fval b) -> ffin N -> bpow radix2 (-500) <= fval N <= bpow radix2 511 ->
  let c := IZR i / IZR (2 + n) in
  ffin (fmid n i N a b) /\
  Rabs (fval (fmid n i N a b) - (fval b + c * (fval a - fval b))) <= bpow radix2 (-49) * (Rabs (fval b) + c * Rabs (fval a - fval b)).
Proof.
  intros Hi Hn Fa Fb Ba Bb Hab FN BN c. unfold fmid.
  destruct (fsub_val a b Fa Fb Ba Bb) as (FD & _ & RD & BD). set (D := fval a - fval b) in *. set (d := PrimFloat.sub a b) in *. clearbody d.
  destruct (f64_ofZ_exact i) as [Fi Ei]; [lia|]. destruct (f64_ofZ_exact (2 + n)) as [Fn En]; [lia|].
  assert (PN : 0 < fval N) by (pose proof (bpow_gt_0 radix2 (-500)); lra).
  assert (Pn : 3 <= IZR (2 + n)) by (apply IZR_le; lia). assert (Pi : 1 <= IZR i) by (apply IZR_le; lia).
  assert (Pin : IZR i <= IZR (2 + n)) by (apply IZR_le; lia).
  assert (Bn : IZR (2 + n) <= bpow radix2 51) by (change (bpow radix2 51) with (IZR (2 ^ 51)); apply IZR_le; lia).
  assert (BDD : Rabs D <= bpow radix2 501).
  { unfold D, Rminus. eapply Rle_trans; [apply Rabs_triang|]. rewrite Rabs_Ropp. change 501%Z with (1 + 500)%Z. rewrite bpow_plus. change (bpow radix2 1) with 2. lra. }

  assert (In : / bpow radix2 51 <= / IZR (2 + n)) by (apply Rinv_le_contravar; lra). rewrite <- bpow_opp in In. change (- (51))%Z with (-51)%Z in In.
  assert (In1 : / IZR (2 + n) <= 1) by (rewrite <- Rinv_1; apply Rinv_le_contravar; lra).
  assert (INv : bpow radix2 (-511) <= / fval N <= bpow radix2 500).
  { split; [change (-511)%Z with (- (511))%Z; rewrite bpow_opp; apply Rinv_le_contravar; lra|change 500%Z with (- (-500))%Z; rewrite bpow_opp; apply Rinv_le_contravar; [apply bpow_gt_0|lra]]. }
  assert (Bc : bpow radix2 (-51) <= c <= 1).
  { unfold c, Rdiv. pose proof (bpow_gt_0 radix2 (-51)). split; [eapply Rle_trans; [exact In|]; rewrite <- (Rmult_1_l (/ IZR (2 + n))) at 1; apply Rmult_le_compat_r; lra|]. apply Rmult_le_reg_r with (IZR (2 + n)); [lra|]. rewrite Rmult_assoc, Rinv_l by lra. lra. }
  (* the direction *)
  assert (MD : moderate (D / fval N)).
  { destruct Hab as [E|E]; [left; unfold D; rewrite E; unfold Rdiv; ring|right]. fold D in E. unfold Rdiv. rewrite Rabs_mult, (Rabs_pos_eq (/ fval N)) by (pose proof (bpow_gt_0 radix2 (-511)); lra).
    pose proof (bpow_gt_0 radix2 (-511)). pose proof (bpow_gt_0 radix2 (-500)). split.
    - apply Rle_trans with (bpow radix2 (-500) * bpow radix2 (-511)); [rewrite <- bpow_plus; apply bpow_le; lia|]. apply Rmult_le_compat; lra.
    - apply Rle_trans with (bpow radix2 501 * bpow radix2 500); [apply Rmult_le_compat; try lra; apply Rabs_pos|rewrite <- bpow_plus; apply bpow_le; lia]. }
  destruct (fdiv_rel 1 0 d N D (fval N) ltac:(lia) FD ltac:(lra) RD (rel_refl _) MD) as [Fdir Rdir].
  (* the step *)
  assert (MS : moderate (fval N / IZR (2 + n))).
  { right. rewrite Rabs_pos_eq by (apply div_nonneg; lra). unfold Rdiv. pose proof (bpow_gt_0 radix2 (-51)). pose proof (bpow_gt_0 radix2 (-500)). split.
    - apply Rle_trans with (bpow radix2 (-500) * bpow radix2 (-51)); [rewrite <- bpow_plus; apply bpow_le; lia|apply Rmult_le_compat; lra].
    - apply Rle_trans with (bpow radix2 511 * 1); [apply Rmult_le_compat; lra|rewrite Rmult_1_r; apply bpow_le; lia]. }
  destruct (fdiv_rel 0 0 N (f64_ofZ (2 + n)) (fval N) (IZR (2 + n)) ltac:(lia) FN ltac:(lra) (rel_refl _) ltac:(rewrite En; apply rel_refl) MS) as [Fst Rst].
  assert (MI : moderate (IZR i * (fval N / IZR (2 + n)))).
  { right. replace (IZR i * (fval N / IZR (2 + n))) with (c * fval N) by (unfold c; field; lra). pose proof (bpow_gt_0 radix2 (-51)). pose proof (bpow_gt_0 radix2 (-500)).
    rewrite Rabs_pos_eq by (apply Rmult_le_pos; lra). split.
    - apply Rle_trans with (bpow radix2 (-51) * bpow radix2 (-500)); [rewrite <- bpow_plus; apply bpow_le; lia|apply Rmult_le_compat; lra].
    - apply Rle_trans with (1 * bpow radix2 511); [apply Rmult_le_compat; lra|rewrite Rmult_1_l; apply bpow_le; lia]. }
  destruct (fmul_rel 0 1 (f64_ofZ i) (PrimFloat.div N (f64_ofZ (2 + n))) (IZR i) (fval N / IZR (2 + n)) ltac:(lia) Fi Fst ltac:(rewrite Ei; apply rel_refl) Rst MI) as [Fis Ris].
  assert (EW : IZR i * (fval N / IZR (2 + n)) * (D / fval N) = c * D) by (unfold c; field; split; lra).
  assert (MW : moderate (IZR i * (fval N / IZR (2 + n)) * (D / fval N))).
  { rewrite EW. destruct Hab as [E|E]; [left; unfold D; rewrite E; ring|right]. fold D in E. pose proof (bpow_gt_0 radix2 (-51)). pose proof (bpow_gt_0 radix2 (-500)).
    rewrite Rabs_mult, (Rabs_pos_eq c) by lra. split.
    - apply Rle_trans with (bpow radix2 (-51) * bpow radix2 (-500)); [rewrite <- bpow_plus; apply bpow_le; lia|apply Rmult_le_compat; lra].
    - apply Rle_trans with (1 * bpow radix2 501); [apply Rmult_le_compat; try lra; apply Rabs_pos|rewrite Rmult_1_l; apply bpow_le; lia]. }
  destruct (fmul_rel 2 2 _ _ _ _ ltac:(lia) Fis Fdir Ris Rdir MW) as [Fw Rw]. rewrite EW in Rw. clear EW MW MI MS MD. cbn [Nat.add] in Rw.
  set (w := PrimFloat.mul (PrimFloat.mul _ _) _) in *. clearbody w.
  pose proof (rel_half 5 (fval w) (c * D) ltac:(lia) Rw) as [_ W2]. pose proof u_tiny as [U1 U2].
  assert (W1 := rel_err 5 (fval w) (c * D) ltac:(cbn [INR]; lra) Rw). cbn [INR] in W1.
  assert (AcD : Rabs (c * D) = c * Rabs D). { rewrite Rabs_mult, (Rabs_pos_eq c); [reflexivity|]. pose proof (bpow_gt_0 radix2 (-51)). lra. }
  assert (Bs : Rabs (fval b + fval w) <= bpow radix2 1023).
  { eapply Rle_trans; [apply Rabs_triang|]. apply Rle_trans with (bpow radix2 500 + 2 * bpow radix2 501).
    - apply Rplus_le_compat; [lra|]. eapply Rle_trans; [exact W2|]. rewrite AcD. pose proof (Rabs_pos D). nra.
    - apply Rle_trans with (bpow radix2 3 * bpow radix2 501); [|rewrite <- bpow_plus; apply bpow_le; lia].
      assert (bpow radix2 500 <= bpow radix2 501) by (apply bpow_le; lia). change (bpow radix2 3) with 8. pose proof (bpow_gt_0 radix2 501). lra. }
  destruct (f64_add_err b w Fb Fw Bs) as [Fx Ex]. split; [exact Fx|]. rewrite Ex.
  destruct (rnd_plus (fval b) (fval w) (fval_format b) (fval_format w)) as (e & He & ->).
  replace ((fval b + fval w) * (1 + e) - (fval b + c * D)) with ((fval w - c * D) + (fval b + fval w) * e) by ring.
  eapply Rle_trans; [apply Rabs_triang|]. rewrite Rabs_mult.
  assert (B1 : Rabs (fval b + fval w) <= Rabs (fval b) + 2 * (c * Rabs D)) by (eapply Rle_trans; [apply Rabs_triang|]; lra).
  change (-49)%Z with (4 + -53)%Z. rewrite bpow_plus. change (bpow radix2 4) with 16. rewrite AcD in W1.
  pose proof (Rabs_pos (fval b)). assert (0 <= c * Rabs D) by (rewrite <- AcD; apply Rabs_pos). pose proof (Rabs_pos e). pose proof (Rabs_pos (fval b + fval w)).
  assert (Rabs (fval b + fval w) * Rabs e <= (Rabs (fval b) + 2 * (c * Rabs D)) * u) by (apply Rmult_le_compat; lra). nra.
Qed.
Lemma between_val (a b : list F64) n pts : length a = length b -> nb_between a b n = Ok pts ->
  pts = map (fun i => zipw (fmid (Z.of_nat n) (Z.of_nat i) (vnorm (fsub a b))) a b) (seq 1 n).
Proof.
  intros L. unfold nb_between. rewrite bcast2_eq by exact L. cbn [rbind]. fold (fsub a b). set (N := vnorm (fsub a b)).
  intros H. apply rseq_ok in H.
  assert (G : forall i, bcast2 (@nadd F64) b (vscale (nmul (nofZ (Z.of_nat i)) (ndiv N (nofZ (2 + Z.of_nat n)))) (map (fun x => ndiv x N) (fsub a b))) = Ok (zipw (fmid (Z.of_nat n) (Z.of_nat i) N) a b)).
  { intros i. rewrite bcast2_eq by (unfold vscale; rewrite !map_length, fsub_len; congruence). f_equal. clearbody N. clear H. unfold fsub, vscale. revert b L. induction a as [|x a IH]; intros [|y b] L; try discriminate; [reflexivity|].
    cbn [zipw map]. f_equal. apply IH. injection L. auto. }
  rewrite (map_ext _ _ G) in H. clear G. clearbody N. set (g := fun i => zipw (fmid (Z.of_nat n) (Z.of_nat i) N) a b). change (map (fun a0 => Ok (g a0)) (seq 1 n) = map Ok pts) in H. rewrite <- (map_map g Ok) in H. clearbody g.
  revert pts H. induction (map g (seq 1 n)) as [|x l IH]; intros [|y pts] H; try discriminate; [reflexivity|]. cbn in H. injection H as -> H. f_equal. apply IH. exact H.
Qed.
