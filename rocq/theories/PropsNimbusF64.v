(** * NIMBUS in IEEE doubles: the intermediate points (C33).
    Vocabulary in SNimbus.v ([projected]) and SFloat.v ([fin_below], [apart]). *)
From Coq Require Import ZArith List Bool Lia Reals Lra Floats.
From Flocq Require Import Core.
From Verif Require Import Num NumF64 Py Np Spec NpFacts XRFacts F64Sums F64Step SFloat F64Vec F64Between MNimbus SNimbus PNimbus PNimbus2 PNimbus3 PNimbus4 PNimbus5 PNimbus6 PNimbus7 PNimbus9 PropsNimbus.
Import ListNotations.
Local Open Scope R_scope.

(** The n points lie, up to rounding (a relative error of 2^-49), at 1/(n+2), 2/(n+2), ...,
    n/(n+2) of the way from the second solution to the first.  If in some component the two
    solutions are not almost equal, the points are distinct and strictly between the two in that
    component.  Missing from C33: as in C33_points_partial. *)
Theorem C33_points_doubles_partial :
  forall (av : @asf_val F64) p ideal nadir start x0 s0 s qs sols objs d z1 z2 ix n (a b : list F64) s' out,
  nb_init av p ideal nadir start x0 = Ok s0 -> nb_reach av p ideal nadir s0 s qs ->
  bs_phase s = PIntermediate -> In (QInter sols objs) qs -> nb_validate p ideal nadir (QInter sols objs) d = Ok tt ->
  bd_indices d = Some (z1 :: z2 :: ix) -> bd_ndes d = Some (VInt n) -> (n <= 2 ^ 50)%Z ->
  nth_error sols (Z.to_nat z1) = Some a -> nth_error sols (Z.to_nat z2) = Some b -> length a = length b -> (Z.of_nat (length a) <= 2 ^ 20)%Z ->
  fin_below 500 a -> fin_below 500 b -> apart (-500) a b -> map fval a <> map fval b ->
  nb_iterate av p ideal nadir (QInter sols objs) (Some d) s = (s', Ok out) ->
  exists sols' objs' (pts : list (list F64)),
    out = QSave sols' objs' /\ (1 <= n)%Z /\ length pts = Z.to_nat n /\ length sols' = Z.to_nat n /\ length objs' = Z.to_nat n /\
    (forall t pt, nth_error pts t = Some pt -> length pt = length a /\
       forall j x y z, nth_error a j = Some x -> nth_error b j = Some y -> nth_error pt j = Some z ->
         let c := (INR (S t) / IZR (2 + n)) in
         ffin z /\ Rabs (fval z - (c * fval x + (1 - c) * fval y)) <= bpow radix2 (-49) * (Rabs (fval y) + c * Rabs (fval x - fval y))) /\
    (forall j x y, nth_error a j = Some x -> nth_error b j = Some y ->
       bpow radix2 (-48) * (Rabs (fval y) + Rabs (fval x - fval y)) < Rabs (fval x - fval y) / IZR (2 + n) ->
       NoDup pts /\
       forall pt z, In pt pts -> nth_error pt j = Some z -> Rmin (fval x) (fval y) < fval z < Rmax (fval x) (fval y)) /\
    (forall t pt x g, nth_error pts t = Some pt -> nth_error sols' t = Some x -> nth_error objs' t = Some g ->
       projected av p ideal nadir (bs_sol s) pt x g).
Proof.
  intros av p ideal nadir start x0 s0 s qs sols objs d z1 z2 ix n a b s' out H0 HR HP Hin HV Hix Hnd Hn50 Ha Hb Hl Hk Ba Bb Hap Hne H.
  pose proof (C30_shown_aligned _ _ _ _ _ _ _ _ _ _ _ H0 HR Hin) as HF. cbn in HF.
  apply (validate_inter_ok objs d _ _ Hix Hnd) in HV. destruct HV as [[E _]|(_ & Hn & Hr)]; [discriminate|].
  inversion Hr as [|? ? Hz1 Hr']; subst. inversion Hr' as [|? ? Hz2 _]; subst.
  apply iter_inter in H; auto. destruct H as [(e & _ & E & _)|(d' & q & Ed & Hh & E & _)]; [discriminate|]. injection Ed as <-. injection E as ->.
  destruct (PNimbus9.between_total a b (Z.to_nat n) Hl) as (pts & HB).
  destruct (handle_inter_spec F64_ord av p ideal nadir s sols objs d q z1 z2 ix n _ _ _ Hix Hnd (proj1 Hz1) (proj1 Hz2) Ha Hb HB Hh) as (sols' & objs' & -> & L1 & L2 & HPj).
  apply between_val in HB; [|exact Hl]. rewrite Z2Nat.id in HB by lia. set (N := vnorm (fsub a b)) in *.
  assert (LP : length pts = Z.to_nat n) by (rewrite HB, map_length, seq_length; reflexivity). rewrite LP in L1, L2.
  destruct (fnorm_facts (fsub a b) (fsub_below a b Ba Bb)) as (FN & BN & _); [rewrite fsub_len by exact Hl; exact Hk|].
  pose proof (fnorm_pos (-500) a b ltac:(lia) Hl Hk Ba Bb Hap Hne) as BN'. fold N in FN, BN, BN'.
  assert (NT : forall t pt, nth_error pts t = Some pt -> (t < Z.to_nat n)%nat /\ pt = zipw (fmid n (Z.of_nat (S t)) N) a b).
  { intros t pt E. assert (Lt : (t < Z.to_nat n)%nat) by (rewrite <- LP; apply nth_error_Some; congruence).
    split; auto. rewrite HB, nth_error_map, (nth_error_nth' _ 0%nat) in E by (rewrite seq_length; auto). rewrite seq_nth in E by auto. cbn [option_map] in E. injection E as <-. reflexivity. }
  assert (CL : forall t pt j x y z, nth_error pts t = Some pt -> nth_error a j = Some x -> nth_error b j = Some y -> nth_error pt j = Some z ->
     ffin z /\ Rabs (fval z - (fval y + INR (S t) / IZR (2 + n) * (fval x - fval y))) <= bpow radix2 (-49) * (Rabs (fval y) + INR (S t) / IZR (2 + n) * Rabs (fval x - fval y))).
  { intros t pt j x y z Et Ex Ey Ez. apply NT in Et as (Lt & ->). rewrite (zipw_nth _ _ _ _ _ _ Ex Ey) in Ez. injection Ez as <-.
    destruct (within_nth _ _ _ _ Ba Ex) as [Fx Bx]. destruct (within_nth _ _ _ _ Bb Ey) as [Fy By].
    assert (AP : fval x = fval y \/ bpow radix2 (-500) <= Rabs (fval x - fval y)).
    { unfold apart in Hap. clear -Hap Ex Ey. revert j Ex Ey. induction Hap as [|p q v w H HF IH]; intros [|j] Ex Ey; try discriminate; [injection Ex as ->; injection Ey as ->; exact H|eapply IH; eauto]. }
    rewrite INR_IZR_INZ. apply fmid_close; auto; try lia. split; lra. }
  assert (Pn : 3 <= IZR (2 + n)) by (apply IZR_le; lia).
  exists sols', objs', pts. split; [reflexivity|]. split; [exact Hn|]. split; [exact LP|]. split; [exact L1|]. split; [exact L2|]. split; [|split; [|exact HPj]].
  - intros t pt Et. split; [apply NT in Et as (_ & ->); apply zipw_len; exact Hl|]. intros j x y z Ex Ey Ez c.
    replace (c * fval x + (1 - c) * fval y) with (fval y + c * (fval x - fval y)) by ring. eapply CL; eauto.
  - intros j x y Ex Ey HS. set (D := fval x - fval y) in *. set (E := bpow radix2 (-48) * (Rabs (fval y) + Rabs D)) in *.
    set (q := Rabs D / IZR (2 + n)) in *. assert (EQ : Rabs D = q * IZR (2 + n)) by (unfold q; field; lra).
    assert (CL2 : forall t pt z, nth_error pts t = Some pt -> nth_error pt j = Some z -> (t < Z.to_nat n)%nat /\ Rabs (fval z - (fval y + INR (S t) / IZR (2 + n) * D)) <= E / 2).
    { intros t pt z Et Ez. pose proof (NT _ _ Et) as (Lt & _). split; [exact Lt|]. destruct (CL _ _ _ _ _ _ Et Ex Ey Ez) as [_ G]. eapply Rle_trans; [exact G|].
      unfold E. change (-48)%Z with (1 + -49)%Z. rewrite bpow_plus. change (bpow radix2 1) with 2. fold D.
      assert (C1 : INR (S t) / IZR (2 + n) <= 1). { apply Rmult_le_reg_r with (IZR (2 + n)); [lra|]. unfold Rdiv. rewrite Rmult_assoc, Rinv_l by lra. rewrite INR_IZR_INZ. rewrite Rmult_1_l, Rmult_1_r. apply IZR_le. lia. }
      pose proof (Rabs_pos D). pose proof (bpow_gt_0 radix2 (-49)). assert (INR (S t) / IZR (2 + n) * Rabs D <= 1 * Rabs D) by (apply Rmult_le_compat_r; lra). nra. }
    assert (PE : 0 <= E) by (unfold E; pose proof (bpow_gt_0 radix2 (-48)); pose proof (Rabs_pos (fval y)); pose proof (Rabs_pos D); nra).
    assert (C0 : forall t, INR t / IZR (2 + n) * D = INR t * (D / IZR (2 + n))) by (intros; field; lra).
    assert (AQ : Rabs (D / IZR (2 + n)) = q) by (unfold q, Rdiv; rewrite Rabs_mult, (Rabs_pos_eq (/ IZR (2 + n))); [reflexivity|left; apply Rinv_0_lt_compat; lra]).
    split.
    + apply (proj2 (NoDup_nth_error _)). intros t v Lt Etv. destruct (nth_error pts t) as [pt|] eqn:E1; [|apply nth_error_None in E1; lia]. symmetry in Etv.
      destruct (nth_error pt j) as [z|] eqn:Ez.
      * destruct (CL2 _ _ _ E1 Ez) as (_ & G1), (CL2 _ _ _ Etv Ez) as (_ & G2).
        destruct (Nat.eq_dec t v) as [|N1]; [assumption|exfalso]. rewrite !C0, !S_INR in *. set (r := D / IZR (2 + n)) in *.
        assert (G3 : Rabs ((INR t - INR v) * r) <= E).
        { replace ((INR t - INR v) * r) with ((fval z - (fval y + (INR v + 1) * r)) + - (fval z - (fval y + (INR t + 1) * r))) by ring. eapply Rle_trans; [apply Rabs_triang|]. rewrite Rabs_Ropp. lra. }
        rewrite Rabs_mult, AQ in G3. assert (G4 : 1 <= Rabs (INR t - INR v)).
        { rewrite !INR_IZR_INZ, <- minus_IZR, <- abs_IZR. apply IZR_le. lia. }
        assert (1 * q <= Rabs (INR t - INR v) * q) by (apply Rmult_le_compat_r; lra). lra.
      * exfalso. apply nth_error_None in Ez. apply NT in E1 as (_ & ->). rewrite zipw_len in Ez by exact Hl. apply (proj2 (nth_error_None a j)) in Ez. congruence.
    + intros pt z Hpt Ez. apply In_nth_error in Hpt. destruct Hpt as (t & Et). destruct (CL2 _ _ _ Et Ez) as (Lt & G). rewrite C0 in G. set (r := D / IZR (2 + n)) in *.
      assert (Dr : D = IZR (2 + n) * r) by (unfold r; field; lra). assert (T1 : 1 <= INR (S t)) by (rewrite S_INR; pose proof (pos_INR t); lra).
      assert (T2 : INR (S t) + 2 <= IZR (2 + n)) by (rewrite INR_IZR_INZ; change 2 with (IZR 2) at 1; rewrite <- plus_IZR; apply IZR_le; lia).
      apply Rabs_le_inv in G. assert (Hx : fval x = fval y + IZR (2 + n) * r) by (unfold D in Dr; lra).
      destruct (Rle_or_lt 0 r) as [Hr0|Hr0].
      * rewrite Rabs_pos_eq in AQ by exact Hr0. assert (r <= INR (S t) * r) by nra. assert (INR (S t) * r + 2 * r <= IZR (2 + n) * r) by nra.
        rewrite Rmin_right, Rmax_left by (rewrite Hx; nra). split; lra.
      * rewrite Rabs_left in AQ by exact Hr0. assert (INR (S t) * r <= r) by nra. assert (IZR (2 + n) * r <= INR (S t) * r + 2 * r) by nra.
        rewrite Rmin_left, Rmax_right by (rewrite Hx; nra). split; lra.
Qed.
Print Assumptions C33_points_doubles_partial.

Definition d01 : list F64 := [0; 1]%float.
Definition d10 : list F64 := [1; 0]%float.
Definition d00 : list F64 := [0; 0]%float.
Definition d11 : list F64 := [1; 1]%float.
Definition dcP : nb_problem F64 := PMO (N:=F64) 2 (fun x => x) None
  (fun a _ _ _ => Ok (match a with AMaxOfTwo _ _ _ _ => d01 | _ => d10 end, true)).
Example C33_doubles_hypotheses_met : exists (av : @asf_val F64) s0 s qs sols objs d s' out,
  nb_init av dcP d00 d11 None [] = Ok s0 /\ nb_reach av dcP d00 d11 s0 s qs /\
  bs_phase s = PIntermediate /\ In (QInter sols objs) qs /\
  nb_validate dcP d00 d11 (QInter sols objs) d = Ok tt /\
  bd_indices d = Some [1; 0]%Z /\ bd_ndes d = Some (VInt 1) /\
  nth_error sols 1 = Some d10 /\ nth_error sols 0 = Some d01 /\
  nb_iterate av dcP d00 d11 (QInter sols objs) (Some d) s = (s', Ok out) /\
  fin_below 500 d10 /\ fin_below 500 d01 /\ apart (-500) d10 d01 /\ map fval d10 <> map fval d01 /\
  bpow radix2 (-48) * (Rabs (fval 0%float) + Rabs (fval 1%float - fval 0%float)) < Rabs (fval 1%float - fval 0%float) / IZR (2 + 1).
Proof.
  pose (av := (fun _ _ _ => Ok 0%float) : @asf_val F64).
  pose (s0 := MkBS (N:=F64) d10 d10 [] [] PClassify).
  pose (d1 := MkBD (N:=F64) (Some [CFree; CFree]) (Some d00) (Some (VInt 2)) None None None None).
  pose (d2 := MkBD (N:=F64) None None None (Some []) None None None).
  pose (sols := [d01; d10]).
  exists av, s0, (MkBS d10 d10 [] [] PIntermediate), [QInter sols sols; QSave sols sols; nb_start s0], sols, sols,
    (MkBD (N:=F64) None None None (Some [1; 0]%Z) (Some (VInt 1)) None None).
  eexists _, _. split; [reflexivity|]. split.
  { apply (nb_reach_step av dcP d00 d11 s0 (w_phase PArchive s0) [QSave sols sols; nb_start s0] (QSave sols sols) (Some d2) _ (Ok (QInter sols sols)));
      [|left; reflexivity|intros d E; injection E as <-; reflexivity|reflexivity].
    apply (nb_reach_step av dcP d00 d11 s0 s0 [nb_start s0] (nb_start s0) (Some d1) _ (Ok (QSave sols sols)));
      [apply nb_reach_init|left; reflexivity|intros d E; injection E as <-; reflexivity|reflexivity]. }
  split; [reflexivity|]. split; [left; reflexivity|]. repeat (split; [reflexivity|]).
  assert (V1 : fval 1%float = 1) by (exact (proj2 (f64_ofZ_exact 1 ltac:(lia)))). assert (F1 : ffin 1%float) by reflexivity. assert (F0 : ffin 0%float) by reflexivity.
  assert (B1 : Rabs (fval 1%float) <= bpow radix2 500) by (rewrite V1, Rabs_R1; change 1 with (bpow radix2 0); apply bpow_le; lia).
  assert (B0 : Rabs (fval 0%float) <= bpow radix2 500) by (rewrite fval_0, Rabs_R0; apply bpow_ge_0).
  do 2 (split; [constructor; [split; assumption|constructor; [split; assumption|constructor]]|]). split.
  { assert (bpow radix2 (-500) <= 1) by (change 1 with (bpow radix2 0); apply bpow_le; lia).
    constructor; [|constructor; [|constructor]]; right; rewrite V1, fval_0; [replace (1 - 0) with 1 by ring|replace (0 - 1) with (- (1)) by ring; rewrite Rabs_Ropp]; rewrite Rabs_R1; assumption. }
  split; [cbn [map d10 d01]; rewrite V1, fval_0; intros E; injection E; lra|].
  rewrite V1, fval_0, Rabs_R0. replace (1 - 0) with 1 by ring. rewrite Rabs_R1.
  assert (bpow radix2 (-48) <= / 8) by (change (/ 8) with (bpow radix2 (-3)); apply bpow_le; lia). change (IZR (2 + 1)) with 3. lra.
Qed.
