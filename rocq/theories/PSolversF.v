(** * The reference points of the front representation in IEEE doubles (through Flocq). *)
From Coq Require Import String.
From Coq Require Import ZArith Reals Floats Lra Bool List Lia.
From Flocq Require Import Core BinarySingleNaN PrimFloat.
From Verif Require Import Num NumF64 Py Np Spec NpFacts MSolvers SSolvers SSolversF PSolvers PSolvers3 F64Sums F64Step.
Import ListNotations.
Local Open Scope R_scope.
Local Notation u := (bpow radix2 (-53)).
Local Notation eta := (bpow radix2 (-1075)).
Local Notation rnd := (round radix2 (SpecFloat.fexp FloatOps.prec FloatOps.emax) (round_mode mode_NE)).

Lemma u_small : 0 < u <= /1000000.
Proof. split; [apply bpow_gt_0|]. change u with (/ IZR (2 ^ 53)). apply Rinv_le_contravar; [lra|]. apply IZR_le. vm_compute. discriminate. Qed.
Lemma uM E M : M <= bpow radix2 48 * E -> u * M <= E / 32.
Proof.
  intros H. pose proof u_small. assert (u * M <= u * (bpow radix2 48 * E)) by (apply Rmult_le_compat_l; lra).
  rewrite <- Rmult_assoc, <- bpow_plus in H1. change (bpow radix2 (-53 + 48)) with (/ IZR (2 ^ 5)) in H1. change (IZR (2 ^ 5)) with 32 in H1. lra.
Qed.
Lemma eta_E E : bpow radix2 (-500) <= E -> eta <= E / 1000.
Proof.
  intros H. change (-1075)%Z with (-575 + -500)%Z. rewrite bpow_plus. assert (bpow radix2 (-575) <= / 1000).
  { apply Rle_trans with (bpow radix2 (-10)); [apply bpow_le; lia|]. change (bpow radix2 (-10)) with (/ 1024). apply Rinv_le_contravar; lra. }
  pose proof (bpow_gt_0 radix2 (-500)). pose proof (bpow_gt_0 radix2 (-575)). nra.
Qed.
Lemma etaS_E E S : bpow radix2 (-500) <= E -> 0 < S <= bpow radix2 500 -> eta * S <= E / 1000.
Proof.
  intros H [H1 H2]. pose proof (bpow_gt_0 radix2 (-1075)). apply Rle_trans with (eta * bpow radix2 500); [apply Rmult_le_compat_l; lra|].
  rewrite <- bpow_plus. change (-1075 + 500)%Z with (-75 + -500)%Z. rewrite bpow_plus.
  assert (bpow radix2 (-75) <= / 1000).
  { apply Rle_trans with (bpow radix2 (-10)); [apply bpow_le; lia|]. change (bpow radix2 (-10)) with (/ 1024). apply Rinv_le_contravar; lra. }
  pose proof (bpow_gt_0 radix2 (-500)). pose proof (bpow_gt_0 radix2 (-75)). nra.
Qed.

(** |x * d| <= u * B *)
Lemma mul_small x d B : Rabs d <= u -> Rabs x <= B -> Rabs (x * d) <= u * B.
Proof.
  intros Hd Hx. rewrite Rabs_mult, (Rmult_comm u). apply Rmult_le_compat; auto using Rabs_pos.
Qed.

(** The quotient, times the step, is the length of the axis up to a quarter of the offset. *)
Lemma quot_real E L U S d1 d2 d3 e3 : good_axis E L U S -> Rabs d1 <= u -> Rabs d2 <= u -> Rabs d3 <= u -> Rabs e3 <= eta ->
  let X1 := (U + E) * (1 + d1) in let X2 := (X1 - L) * (1 + d2) in
  Rabs (X2 - (U + E - L)) <= E / 8 /\ Rabs ((X2 / S * (1 + d3) + e3) * S - (U + E - L)) <= E / 4.
Proof.
  intros G D1 D2 D3 E3 X1 X2. destruct G as [GS GE GLU GL GU GM GW]. set (M := Rabs L + Rabs U + E) in *.
  pose proof u_small as Hu. pose proof (uM E M GM) as HM. pose proof (bpow_gt_0 radix2 (-500)) as P500.
  assert (AM : 0 <= M) by (unfold M; pose proof (Rabs_pos L); pose proof (Rabs_pos U); lra).
  assert (A1 : Rabs (U + E) <= M). { unfold M. pose proof (Rabs_pos L). pose proof (Rabs_triang U E). rewrite (Rabs_pos_eq E) in H0 by lra. lra. }
  assert (A2 : Rabs (U + E - L) <= M). { unfold M. pose proof (Rabs_triang (U + E) (- L)). pose proof (Rabs_triang U E). rewrite (Rabs_pos_eq E) in H0 by lra. rewrite Rabs_Ropp in H. unfold Rminus. lra. }
  pose proof (mul_small _ _ _ D1 A1) as B1.
  assert (A3 : Rabs (X1 - L) <= 2 * M).
  { replace (X1 - L) with ((U + E - L) + (U + E) * d1) by (unfold X1; ring). eapply Rle_trans; [apply Rabs_triang|]. nra. }
  pose proof (mul_small _ _ _ D2 A3) as B2.
  assert (A4 : Rabs (X2 - (U + E - L)) <= 3 * (u * M)).
  { replace (X2 - (U + E - L)) with ((U + E) * d1 + (X1 - L) * d2) by (unfold X2, X1; ring). eapply Rle_trans; [apply Rabs_triang|]. nra. }
  split; [lra|].
  assert (A5 : Rabs X2 <= 2 * M).
  { replace X2 with ((X2 - (U + E - L)) + (U + E - L)) by ring. eapply Rle_trans; [apply Rabs_triang|]. nra. }
  pose proof (mul_small _ _ _ D3 A5) as B3.
  assert (B4 : Rabs (e3 * S) <= E / 1000).
  { rewrite Rabs_mult, (Rabs_pos_eq S) by lra. eapply Rle_trans; [|apply (etaS_E E S); lra]. apply Rmult_le_compat_r; lra. }
  replace ((X2 / S * (1 + d3) + e3) * S - (U + E - L)) with ((X2 - (U + E - L)) + (X2 * d3 + e3 * S)) by (field; lra).
  eapply Rle_trans; [apply Rabs_triang|]. pose proof (Rabs_triang (X2 * d3) (e3 * S)). lra.
Qed.

Lemma le_1023 x e : (e <= 1023)%Z -> Rabs x <= bpow radix2 e -> Rabs x <= bpow radix2 1023.
Proof. intros He H. eapply Rle_trans; [exact H|]. apply bpow_le. exact He. Qed.
Lemma three_500 : 4 * bpow radix2 500 <= bpow radix2 1023.
Proof. change 4 with (bpow radix2 2). rewrite <- bpow_plus. apply bpow_le. lia. Qed.

Definition fquot (lo up eps s : F64) : F64 := ndiv (nsub (nadd up eps) lo) s.
Lemma fquot_ok lo up eps s : ffin lo -> ffin up -> ffin eps -> ffin s -> good_axis (fval eps) (fval lo) (fval up) (fval s) ->
  ffin (fquot lo up eps s) /\ Rabs (fval (fquot lo up eps s) * fval s - (fval up + fval eps - fval lo)) <= fval eps / 4.
Proof.
  intros Fl Fu Fe Fs G. pose proof G as [GS GE GLU GL GU GM GW]. pose proof three_500 as T. pose proof u_small as Hu.
  pose proof (bpow_gt_0 radix2 (-500)) as P5. unfold fquot. cbn [nadd nsub ndiv F64].
  assert (B1 : Rabs (fval up + fval eps) <= 2 * bpow radix2 500).
  { pose proof (Rabs_triang (fval up) (fval eps)). rewrite (Rabs_pos_eq (fval eps)) in H by lra. lra. }
  destruct (f64_add_err up eps Fu Fe) as (F1 & E1); [lra|]. set (x1 := PrimFloat.add up eps) in *.
  destruct (rnd_plus (fval up) (fval eps) (fval_format up) (fval_format eps)) as (d1 & D1 & R1). rewrite R1 in E1.
  assert (B1' : Rabs (fval x1) <= 3 * bpow radix2 500).
  { rewrite E1, Rabs_mult. pose proof (Rabs_triang 1 d1). rewrite Rabs_R1 in H. pose proof (Rabs_pos (fval up + fval eps)). pose proof (Rabs_pos (1 + d1)). pose proof (bpow_gt_0 radix2 500). nra. }
  destruct (f64_sub_err x1 lo F1 Fl) as (F2 & E2).
  { unfold Rminus. pose proof (Rabs_triang (fval x1) (- fval lo)). rewrite Rabs_Ropp in H. lra. }
  set (x2 := PrimFloat.sub x1 lo) in *.
  assert (Fo : generic_format radix2 (SpecFloat.fexp FloatOps.prec FloatOps.emax) (- fval lo)) by (apply generic_format_opp; apply fval_format).
  destruct (rnd_plus (fval x1) (- fval lo) (fval_format x1) Fo) as (d2 & D2 & R2). fold (fval x1 - fval lo) in R2. rewrite R2 in E2.
  destruct (rnd_err (fval x2 / fval s)) as (d3 & e3 & D3 & E3' & R3).
  destruct (quot_real _ _ _ _ d1 d2 d3 e3 G D1 D2 D3 E3') as (Q1 & Q2). cbv zeta in Q1, Q2. rewrite <- E1 in Q1, Q2. rewrite <- E2 in Q1, Q2. rewrite <- R3 in Q2.
  assert (B3 : Rabs (fval x2 / fval s) <= bpow radix2 1023).
  { apply (le_1023 _ 53); [lia|]. unfold Rdiv. rewrite Rabs_mult, Rabs_inv, (Rabs_pos_eq (fval s)) by lra.
    apply Rmult_le_reg_r with (fval s); [lra|]. rewrite Rmult_assoc, Rinv_l, Rmult_1_r by lra.
    change 53%Z with (1 + 52)%Z. rewrite bpow_plus. change (bpow radix2 1) with 2. rewrite Rmult_assoc.
    replace (fval x2) with ((fval x2 - (fval up + fval eps - fval lo)) + (fval up + fval eps - fval lo)) by ring.
    eapply Rle_trans; [apply Rabs_triang|]. rewrite (Rabs_pos_eq (fval up + fval eps - fval lo)) by lra. lra. }
  destruct (f64_div_err x2 s F2 ltac:(lra) B3) as (F3 & E3). split; [exact F3|]. rewrite E3. exact Q2.
Qed.

Definition fgrid (lo s : F64) (k : nat) : F64 := nadd (nmul (nofZ (Z.of_nat k)) s) lo.
Lemma fgrid_ok lo up eps s k : ffin lo -> ffin up -> ffin eps -> ffin s -> good_axis (fval eps) (fval lo) (fval up) (fval s) ->
  INR k * fval s <= fval up - fval lo + 5 / 4 * fval eps ->
  ffin (fgrid lo s k) /\ Rabs (fval (fgrid lo s k) - (fval lo + INR k * fval s)) <= fval eps / 4.
Proof.
  intros Fl Fu Fe Fs G Hk. pose proof G as [GS GE GLU GL GU GM GW]. pose proof three_500 as T. pose proof u_small as Hu.
  pose proof (bpow_gt_0 radix2 (-500)) as P5. unfold fgrid. cbn [nadd nmul nofZ F64].
  assert (KZ : INR k = IZR (Z.of_nat k)) by (apply INR_IZR_INZ). pose proof (pos_INR k) as Kp.
  assert (K53 : (0 <= Z.of_nat k <= 2 ^ 53)%Z).
  { split; [lia|]. apply le_IZR. rewrite <- KZ. apply Rmult_le_reg_r with (fval s); [lra|]. eapply Rle_trans; [exact Hk|].
    change (IZR (2 ^ 53)) with (2 * bpow radix2 52). lra. }
  destruct (f64_ofZ_exact _ K53) as (F0 & E0). rewrite <- KZ in E0.
  set (M := Rabs (fval lo) + Rabs (fval up) + fval eps) in *. pose proof (uM _ _ GM) as HM.
  assert (AU : fval up <= Rabs (fval up)) by apply Rle_abs. assert (AL : - fval lo <= Rabs (fval lo)) by (rewrite <- Rabs_Ropp; apply Rle_abs).
  assert (KS : 0 <= INR k * fval s <= 2 * M). { split; [apply Rmult_le_pos; lra|]. pose proof (Rabs_pos (fval lo)). pose proof (Rabs_pos (fval up)). unfold M. lra. }
  assert (KB : Rabs (INR k * fval s) <= 4 * bpow radix2 500). { rewrite Rabs_pos_eq by lra. pose proof (Rabs_pos (fval lo)). pose proof (Rabs_pos (fval up)). lra. }
  destruct (f64_mul_err (f64_ofZ (Z.of_nat k)) s F0 Fs) as (F1 & E1); [rewrite E0; lra|]. rewrite E0 in E1.
  destruct (rnd_err (INR k * fval s)) as (d1 & e1 & D1 & H1 & R1). rewrite R1 in E1. set (x1 := PrimFloat.mul _ s) in *.
  pose proof (eta_E _ (proj1 GE)) as HE.
  assert (AK : Rabs (INR k * fval s) <= 2 * M) by (rewrite Rabs_pos_eq; lra).
  pose proof (mul_small _ _ _ D1 AK) as B1.
  assert (X1 : Rabs (fval x1 - INR k * fval s) <= fval eps / 16 + fval eps / 1000).
  { rewrite E1. replace (INR k * fval s * (1 + d1) + e1 - INR k * fval s) with (INR k * fval s * d1 + e1) by ring. eapply Rle_trans; [apply Rabs_triang|]. lra. }
  assert (S1 : Rabs (fval x1 + fval lo) <= 4 * M).
  { replace (fval x1 + fval lo) with ((fval x1 - INR k * fval s) + (INR k * fval s + fval lo)) by ring. eapply Rle_trans; [apply Rabs_triang|].
    pose proof (Rabs_triang (INR k * fval s) (fval lo)). pose proof (Rabs_pos (fval lo)). pose proof (Rabs_pos (fval up)). unfold M in *. lra. }
  assert (MB : 4 * M <= bpow radix2 1023).
  { apply Rle_trans with (bpow radix2 4 * bpow radix2 500); [change (bpow radix2 4) with 16; unfold M; pose proof (bpow_gt_0 radix2 500); lra|]. rewrite <- bpow_plus. apply bpow_le. lia. }
  destruct (f64_add_err x1 lo F1 Fl) as (F2 & E2); [lra|]. split; [exact F2|].
  destruct (rnd_plus (fval x1) (fval lo) (fval_format x1) (fval_format lo)) as (d2 & D2 & R2). rewrite E2, R2.
  pose proof (mul_small _ _ _ D2 S1) as B2.
  replace ((fval x1 + fval lo) * (1 + d2) - (fval lo + INR k * fval s)) with ((fval x1 - INR k * fval s) + (fval x1 + fval lo) * d2) by ring.
  eapply Rle_trans; [apply Rabs_triang|]. lra.
Qed.

(** The points of one axis: [lo + k * s] for all k up to the upper end and half the
    offset, none beyond the upper end and 5/4 of it, each up to a quarter of the offset. *)
Lemma axis_f64 e lo up eps s : double_ceil e -> ffin lo -> ffin up -> ffin eps -> ffin s -> good_axis (fval eps) (fval lo) (fval up) (fval s) ->
  exists n, sv_axis e lo up eps s = Ok (map (fgrid lo s) (seq 0 n)) /\
    (forall k, INR k * fval s <= fval up - fval lo + fval eps / 2 -> (k < n)%nat) /\
    (forall k, (k < n)%nat -> INR k * fval s <= fval up - fval lo + 5 / 4 * fval eps).
Proof.
  intros HC Fl Fu Fe Fs G. destruct (fquot_ok lo up eps s Fl Fu Fe Fs G) as (Fq & Hq). pose proof G as [GS GE GLU GL GU GM GW].
  pose proof (bpow_gt_0 radix2 (-500)) as P5.
  destruct (HC _ Fq) as (c & Ec & Hc). unfold sv_axis. fold (fquot lo up eps s). rewrite Ec. cbn [rbind].
  apply Rabs_le_inv in Hq. destruct Hc as [C1 C2].
  assert (Q0 : 0 < fval (fquot lo up eps s)). { apply Rmult_lt_reg_r with (fval s); lra. }
  assert (Cp : (0 < c)%Z) by (apply lt_IZR; lra).
  destruct (Z.ltb_spec c 0) as [?|_]; [lia|]. exists (Z.to_nat c). split; [reflexivity|]. split.
  - intros k Hk. assert (INR k < fval (fquot lo up eps s)) by (apply Rmult_lt_reg_r with (fval s); lra).
    rewrite INR_IZR_INZ in H. assert (Z.of_nat k < c)%Z by (apply lt_IZR; lra). lia.
  - intros k Hk. assert (Z.of_nat k <= c - 1)%Z by lia. apply IZR_le in H. rewrite minus_IZR, <- INR_IZR_INZ in H.
    assert (INR k * fval s <= fval (fquot lo up eps s) * fval s) by (apply Rmult_le_compat_r; lra). lra.
Qed.

(** The axes, and the grid. *)
Lemma grid_f64 e eps lo up ss : double_ceil e -> ffin eps -> Forall ffin lo -> Forall ffin up -> Forall ffin ss ->
  good_axes (fval eps) (map fval lo) (map fval up) (map fval ss) ->
  exists axes, sv_axes e lo up eps ss = Ok axes /\
    (forall ks, counted (fval eps / 2) (map fval lo) (map fval up) (map fval ss) ks ->
       exists z, In z (sv_mesh axes) /\ near_grid (fval eps / 4) (map fval lo) (map fval ss) ks z) /\
    (forall z, In z (sv_mesh axes) -> exists ks, counted (5 / 4 * fval eps) (map fval lo) (map fval up) (map fval ss) ks /\
       near_grid (fval eps / 4) (map fval lo) (map fval ss) ks z).
Proof.
  intros HC Fe. revert up ss. induction lo as [|l lo IH]; intros [|u up] [|s ss] FL FU FS H; cbn [map] in H; inversion H as [|? ? ? ? ? ? G H']; subst.
  - exists []. split; [reflexivity|]. split.
    + intros ks Hk. inversion Hk; subst. exists []. split; [left; reflexivity|constructor].
    + intros z [<-|[]]. exists []. split; constructor.
  - inversion FL as [|? ? Fl FL']; inversion FU as [|? ? Fu FU']; inversion FS as [|? ? Fs FS']; subst.
    destruct (IH up ss FL' FU' FS' H') as (axes & Ea & I1 & I2). destruct (axis_f64 e l u eps s HC Fl Fu Fe Fs G) as (n & En & N1 & N2).
    cbn [sv_axes]. rewrite En. cbn [rbind]. rewrite Ea. cbn [rbind]. eexists. split; [reflexivity|]. cbn [sv_mesh map]. pose proof G as [GS GE GLU GL GU GM GW]. pose proof (bpow_gt_0 radix2 (-500)) as P5. split.
    + intros ks Hk. inversion Hk as [|? ? ? k ? ? ? ks' Hk1 Hk2]; subst. destruct (I1 _ Hk2) as (z & Hz & Cz).
      exists (fgrid l s k :: z). split.
      * apply in_flat_map. exists (fgrid l s k). split; [apply in_map; apply in_seq; specialize (N1 _ Hk1); lia|]. apply in_map. exact Hz.
      * destruct (fgrid_ok l u eps s k Fl Fu Fe Fs G) as (F1 & E1); [lra|]. constructor; auto.
    + intros z Hz. apply in_flat_map in Hz. destruct Hz as (x & Hx & Hz). apply in_map_iff in Hx. destruct Hx as (k & <- & Hk). apply in_seq in Hk.
      apply in_map_iff in Hz. destruct Hz as (z' & <- & Hz). destruct (I2 _ Hz) as (ks & Ck & Cz). exists (k :: ks).
      assert (Hks := N2 k ltac:(lia)). split; [constructor; auto|].
      destruct (fgrid_ok l u eps s k Fl Fu Fe Fs G Hks) as (F1 & E1). constructor; auto.
Qed.

(** The corners. *)
Lemma fmin_val x y : ffin x -> ffin y -> ffin (@nminimum F64 x y) /\ fval (@nminimum F64 x y) = Rmin (fval x) (fval y).
Proof.
  intros Fx Fy. unfold nminimum. rewrite (ffin_notnan x Fx), orb_false_r. change (@nleb F64 x y) with (PrimFloat.leb x y). rewrite f64_leb_val by assumption.
  destruct (Rle_bool_spec (fval x) (fval y)); split; auto; [rewrite Rmin_left|rewrite Rmin_right]; lra.
Qed.
Lemma fmax_val x y : ffin x -> ffin y -> ffin (@nmaximum F64 x y) /\ fval (@nmaximum F64 x y) = Rmax (fval x) (fval y).
Proof.
  intros Fx Fy. unfold nmaximum. rewrite (ffin_notnan x Fx), orb_false_r. change (@nleb F64 y x) with (PrimFloat.leb y x). rewrite f64_leb_val by assumption.
  destruct (Rle_bool_spec (fval y) (fval x)); split; auto; [rewrite Rmax_left|rewrite Rmax_right]; lra.
Qed.
Lemma zip_val (f : F64 -> F64 -> F64) (g : R -> R -> R) a b : (forall x y, ffin x -> ffin y -> ffin (f x y) /\ fval (f x y) = g (fval x) (fval y)) ->
  Forall ffin a -> Forall ffin b -> Forall ffin (zipw f a b) /\ map fval (zipw f a b) = zipw g (map fval a) (map fval b).
Proof.
  intros H Ha. revert b. induction Ha as [|x a Fx Ha IH]; intros [|y b] Hb; cbn [zipw map]; try (split; [constructor|reflexivity]).
  inversion Hb; subst. destruct (IH b) as (I1 & I2); [assumption|]. destruct (H x y) as (H1' & H2'); auto. split; [constructor; auto|]. f_equal; auto.
Qed.
Lemma steps_f64 k st ss : step_isF k st ss -> sv_steps k st = Ok ss.
Proof. intros (Hl & [->|(s & -> & ->)]); cbn [sv_steps]; [rewrite Hl, Nat.eqb_refl|]; reflexivity. Qed.

(** Whole steps below a point of the box. *)
Lemma steps_below E lo up ss p : 0 <= E -> good_axes E lo up ss -> rvle lo p -> rvle p up ->
  exists ks, counted (E / 2) lo up ss ks /\
    forall z, near_grid (E / 4) lo ss ks z -> Forall2 (fun x q => fval x <= q + E) z p /\ Forall2 (fun x q => q < x) (zipw (fun x s => fval x + s + E) z ss) p.
Proof.
  intros HE G. revert p. induction G as [|l u s lo up ss G1 G IH]; intros p H1 H2.
  - inversion H1; subst. exists []. split; [constructor|]. intros z Hz. inversion Hz; subst. split; constructor.
  - inversion H1 as [|? q ? p' Hl H1']; subst. inversion H2 as [|? ? ? ? Hu H2']; subst. destruct (IH p' H1' H2') as (ks & Ck & Hks).
    destruct G1 as [GS GE GLU GL GU GM GW].
    destruct (base_Int_part ((q - l) / s)) as [B1 B2]. remember (Int_part ((q - l) / s)) as k eqn:Hk. clear Hk.
    assert (Q0 : 0 <= (q - l) / s) by (apply div_nonneg; lra).
    assert (K0 : (0 <= k)%Z). { assert (-1 < k)%Z by (apply lt_IZR; lra). lia. }
    assert (Ek : INR (Z.to_nat k) = IZR k) by (rewrite INR_IZR_INZ, Z2Nat.id by exact K0; reflexivity).
    assert (Qe : (q - l) / s * s = q - l) by (field; lra).
    assert (M1 : IZR k * s <= q - l). { rewrite <- Qe. apply Rmult_le_compat_r; lra. }
    assert (M2 : q - l < (IZR k + 1) * s). { rewrite <- Qe. apply Rmult_lt_compat_r; lra. }
    exists (Z.to_nat k :: ks). split; [constructor; [rewrite Ek; lra|exact Ck]|]. intros z Hz. inversion Hz as [|? ? ? x ? ? ? z' Fx Ex Hz']; subst.
    rewrite Ek in Ex. apply Rabs_le_inv in Ex. destruct (Hks z' Hz') as (I1 & I2). pose proof (bpow_gt_0 radix2 (-500)). split; [constructor; [lra|exact I1]|]. cbn [zipw]. constructor; [lra|exact I2].
Qed.
