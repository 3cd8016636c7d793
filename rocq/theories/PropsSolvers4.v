(** * The reference points of the front representation in IEEE doubles (C109). *)
From Coq Require Import String.
From Coq Require Import ZArith Reals Floats Lra Bool List Lia.
From Flocq Require Import Core BinarySingleNaN PrimFloat.
From Verif Require Import Num NumXR NumF64 Py Np Spec NpFacts MNavigator PNavigator6 MRpm MSolvers SSolvers SSolversF PSolvers PSolvers3 PSolversF F64Sums F64Step PropsSolvers2.
Import ListNotations.
Open Scope R_scope.

Lemma known_fin (a : list F64) : a <> [] -> Forall ffin a -> known a.
Proof.
  intros Hne H. destruct H as [|x a F H]; [exfalso; apply Hne; reflexivity|]. exists x. split; [left; reflexivity|]. unfold MParetoNav.nisinf. apply andb_false_iff. right. apply ffin_sub. exact F.
Qed.

Lemma grid_mesh {N : NumOps} (e : sv_env N) id nd eps st ss axes Z : length id = length nd -> sv_steps (length id) st = Ok ss ->
  sv_axes e (zipw nminimum id nd) (zipw nmaximum id nd) eps ss = Ok axes -> sv_grid e id nd eps st = Ok Z -> Z = sv_mesh axes.
Proof.
  intros Ln Hs Ha H. unfold sv_grid in H. rewrite <- Ln, Nat.eqb_refl in H. cbn [negb] in H. rewrite Hs in H. cbn [rbind] in H. rewrite Ha in H. cbn [rbind] in H.
  destruct id; [discriminate|]. injection H as <-. reflexivity.
Qed.

(** Finite data for which rounding does no harm (SSolversF.v).  The reference points
    are used one after the other, and the outcomes returned are those of a subsequence
    of the answers.  Each is a whole number of steps above the lower corner, up to a
    quarter of the offset, and not beyond the upper corner by more than twice the
    offset; every point that many steps above the lower corner and not beyond the upper
    one is used; so every point of the box has a reference point less than a step
    below it, and the upper corner is used if it is a whole number of steps away, both
    up to the offset. *)
Theorem C109_grid_partial :
  forall (e : sv_env F64) eval n bounds st ss eps id nd constr method V O,
  double_ceil e -> id <> [] -> length id = length nd -> Forall ffin id -> Forall ffin nd -> ffin eps -> Forall ffin ss -> step_isF (length id) st ss ->
  let lo := zipw Rmin (map fval id) (map fval nd) in let up := zipw Rmax (map fval id) (map fval nd) in let rs := map fval ss in let E := fval eps in
  good_axes E lo up rs ->
  (forall j x, sv_minimize e j = Ok (x, true) -> length (eval x) = length id /\ has_number (eval x)) ->
  sv_front e eval n bounds st eps (Some id) (Some nd) constr method = Ok (V, O) ->
  exists Z rows,
    Forall2 (fun z r => match r with Some x => ref_answer e eval bounds method id nd z x true | None => True end) Z rows /\ O = map eval (somes rows) /\
    Forall (fun z => exists x ok, ref_answer e eval bounds method id nd z x ok) Z /\
    (forall z, In z Z -> exists ks, counted (5 / 4 * E) lo up rs ks /\ near_grid (E / 4) lo rs ks z) /\
    (forall ks, counted (E / 2) lo up rs ks -> exists z, In z Z /\ near_grid (E / 4) lo rs ks z) /\
    (forall p, rvle lo p -> rvle p up -> exists z, In z Z /\
       Forall2 (fun x q => fval x <= q + E) z p /\ Forall2 (fun x q => q < x) (zipw (fun x s => fval x + s + E) z rs) p) /\
    (forall ks, zipw Rplus lo (zipw (fun k s => INR k * s) ks rs) = up -> length ks = length rs -> exists z, In z Z /\ Forall2 (fun x q => Rabs (fval x - q) <= E) z up).
Proof.
  intros e eval n bounds st ss eps id nd constr method V O HC Hne Ln Fi Fn Fe Fs Hst lo up rs E G HE H.
  assert (Hnd : nd <> []) by (intros ->; destruct id; [congruence|discriminate]).
  destruct (front_ok e eval n bounds st _ _ _ constr method V O (known_fin id Hne Fi) (known_fin nd Hnd Fn) H) as (Z & O' & V' & Hz & Hl & -> & ->).
  destruct (zip_val _ _ id nd fmin_val Fi Fn) as (FL & EL). destruct (zip_val _ _ id nd fmax_val Fi Fn) as (FU & EU). fold lo in EL. fold up in EU.
  assert (E0 : 0 <= E).
  { clear - G Hne Ln. unfold lo, up, rs in G. destruct id as [|i id]; [congruence|]. destruct nd as [|d nd]; [discriminate|]. cbn [map zipw] in G. inversion G as [|? ? ? ? ? ? G1 _]; subst.
    destruct (ga_E _ _ _ _ G1) as (H & _). pose proof (bpow_gt_0 radix2 (-500)). lra. }
  destruct (grid_f64 e eps _ _ ss HC Fe FL FU Fs) as (axes & Ea & I1 & I2); [rewrite EL, EU; exact G|]. rewrite EL, EU in I1, I2. fold rs in I1, I2. fold E in I1, I2.
  assert (EZ : Z = sv_mesh axes).
  { exact (grid_mesh e id nd eps st ss axes Z Ln (steps_f64 _ _ _ Hst) Ea Hz). }
  rewrite <- EZ in I1, I2. clear EZ.
  destruct (loop_rows F64_ord e eval bounds (length id) method id nd Z) with (O := @nil (list F64)) (V := @nil (list F64)) (O' := O') (V' := V') as (rows & HR & HO); auto.
  { intros z x _ (j & Hj & _). exact (HE j x Hj). }
  exists Z, rows. split; [exact HR|]. split; [exact HO|]. split; [|split; [exact I2|split; [exact I1|split]]].
  - apply Forall_forall. intros z Hin. eapply loop_called; [exact Hl|exact Hin].
  - intros p H1 H2. destruct (steps_below E lo up rs p E0 G H1 H2) as (ks & Ck & Hk). destruct (I1 _ Ck) as (z & Hin & Hzn). exists z. split; [exact Hin|]. apply Hk. exact Hzn.
  - intros ks Hks Lks.
    assert (HK : counted (E / 2) lo up rs ks /\ forall z, near_grid (E / 4) lo rs ks z -> Forall2 (fun x q => Rabs (fval x - q) <= E) z up).
    { clear - G Hks Lks E0. revert ks Hks Lks. induction G as [|l u s lo up rs G1 G IH]; intros [|k ks] Hks Lks; try discriminate.
      - split; [constructor|]. intros z Hz. inversion Hz; subst. constructor.
      - cbn [zipw] in Hks. injection Hks as K1 K2. destruct (IH ks K2) as (I1 & I2); [cbn in Lks; lia|]. split; [constructor; [lra|exact I1]|].
        intros z Hz. inversion Hz as [|? ? ? x ? ? ? z' Fx Ex Hz']; subst. constructor; [|apply I2; exact Hz']. eapply Rle_trans; [exact Ex|]. lra. }
    destruct HK as (K1 & K2). destruct (I1 _ K1) as (z & Hin & Hzn). exists z. auto.
Qed.
Print Assumptions C109_grid_partial.

(** [math.ceil] of a double is exact: it is computed from mantissa and exponent. *)
Lemma fval_sf x : fval x = SF2R radix2 (Prim2SF x).
Proof. unfold fval. rewrite <- (B2SF_Prim2B x). symmetry. apply SF2R_B2SF. Qed.
Lemma f64_ceil_exact e : sv_ceil e = f64_ceil -> double_ceil e.
Proof.
  intros He x F. rewrite He. unfold f64_ceil. rewrite fval_sf. unfold ffin in F. rewrite is_finite_equiv, <- is_finite_SF_B2SF, B2SF_Prim2B in F.
  destruct (Prim2SF x) as [s|s| |s m ex]; try discriminate.
  - exists 0%Z. split; [reflexivity|]. unfold is_ceil. cbn [SF2R]. lra.
  - eexists. split; [reflexivity|]. cbn [SF2R]. set (v := if s then Z.neg m else Z.pos m).
    assert (Ev : F2R (Float radix2 (cond_Zopp s (Z.pos m)) ex) = IZR v * bpow radix2 ex) by (unfold F2R, v; destruct s; reflexivity).
    rewrite Ev. unfold is_ceil. destruct (Z.leb_spec 0 ex) as [Hx|Hx].
    + rewrite mult_IZR, (IZR_Zpower radix2) by exact Hx. lra.
    + assert (Ex : bpow radix2 ex = / IZR (2 ^ (- ex))) by (rewrite (IZR_Zpower radix2) by lia; rewrite <- bpow_opp, Z.opp_involutive; reflexivity).
      rewrite Ex. assert (P : (0 < 2 ^ (- ex))%Z) by (apply Z.pow_pos_nonneg; lia). set (D := (2 ^ (- ex))%Z) in *.
      pose proof (Z.div_mod (- v) D ltac:(lia)) as Hd. pose proof (Z.mod_pos_bound (- v) D P) as Hm.
      set (q := (- v / D)%Z) in *. set (r := (- v mod D)%Z) in *. apply IZR_lt in P.
      assert (Evr : IZR v = - (IZR D * IZR q) - IZR r). { rewrite <- mult_IZR, <- opp_IZR, <- minus_IZR. f_equal. lia. }
      rewrite opp_IZR. assert (Eq : IZR v * / IZR D = - IZR q - IZR r * / IZR D) by (rewrite Evr; field; lra). rewrite Eq.
      destruct Hm as [M1 M2]. apply IZR_le in M1. apply IZR_lt in M2.
      assert (0 <= IZR r * / IZR D) by (apply div_nonneg; lra). assert (IZR r * / IZR D < 1). { apply Rmult_lt_reg_r with (IZR D); [lra|]. rewrite Rmult_assoc, Rinv_l by lra. lra. }
      lra.
Qed.

(** Refuted without these conditions: the offset 1e-6 is lost when it is added to
    1e11, so the upper corner, ten steps of 1e10 away, is not a reference point.  This
    solver fails for that reference point, and the call returns all the same. *)
Definition c_o : list F64 := [0; 0]%float.
Definition c_n : list F64 := [1e11; 1]%float.
Definition c_s : list F64 := [1e10; 10]%float.
Definition c_z : list F64 := [1e11; 0]%float.
Definition c_t : F64 := 0x1p-7%float.
Definition c_min (j : sv_job F64) : res (list F64 * bool) :=
  do v <- sj_fun j c_z; if nltb v c_t then Raise ValueErr else Ok (c_o, true).
Definition c_env : sv_env F64 := MkSE c_min (fun nd id f q => Ok (pm_asf nd id f q)) f64_ceil.
Definition c_job : sv_job F64 := MkJob (fun x => sv_asf c_env c_n c_o x c_z) d_b None "scipy_de" None.
Definition c_front : list (list F64) := repeat c_o 10.
Theorem C109_upper_corner_refuted :
  double_ceil c_env /\ uses_asf c_env /\
  sv_minimize c_env c_job = Raise ValueErr /\
  sv_front c_env (fun x => x) 2 d_b (StArr c_s) d_eps (Some c_o) (Some c_n) None "scipy_de" = Ok (c_front, c_front) /\
  zipw Rplus (map fval c_o) (zipw (fun k s => INR k * s) [10; 0]%nat (map fval c_s)) = map fval c_z.
Proof.
  split; [apply f64_ceil_exact; reflexivity|]. split; [intros nd id f q; reflexivity|].
  split; [vm_cast_no_check (@eq_refl (res (list F64 * bool)) (Raise ValueErr))|].
  split; [vm_cast_no_check (@eq_refl (res (list (list F64) * list (list F64))) (Ok (c_front, c_front)))|].
  unfold c_o, c_s, c_z. cbn [map zipw]. rewrite fval_0.
  assert (E1 : fval 1e10%float = 10000000000). { rewrite fval_sf. set (t := Prim2SF _). vm_compute in t. subst t. cbn. unfold F2R. cbn. lra. }
  assert (E2 : fval 1e11%float = 100000000000). { rewrite fval_sf. set (t := Prim2SF _). vm_compute in t. subst t. cbn. unfold F2R. cbn. lra. }
  rewrite E1, E2. cbn [INR]. f_equal; [lra|]. f_equal. lra.
Qed.
Print Assumptions C109_upper_corner_refuted.

(** A case that meets the conditions: ideal (0, 0), nadir (1, 2), steps 0.5 and 1. *)
Definition g_n : list F64 := [1; 2]%float.
Definition g_s : list F64 := [0.5; 1]%float.
Definition g_eps : F64 := 0x1p-20%float.
Definition g_env : sv_env F64 := MkSE (fun _ => Ok (c_o, true)) (fun nd id f q => Ok (pm_asf nd id f q)) f64_ceil.
Definition g_front : list (list F64) := repeat c_o 9.
Lemma g_axis U S : 1 <= U <= 2 -> / 2 <= S <= 1 -> good_axis (/ 1048576) 0 U S.
Proof.
  intros HU HS. assert (B : 2 <= bpow radix2 500). { change 2 with (bpow radix2 1). apply bpow_le. lia. }
  assert (B2 : bpow radix2 (-500) <= / 1048576). { change (/ 1048576) with (bpow radix2 (-20)). apply bpow_le. lia. }
  constructor; rewrite ?Rabs_R0; try lra; rewrite ?(Rabs_pos_eq U) by lra; try lra.
  - change (bpow radix2 48) with 281474976710656. lra.
  - change (bpow radix2 52) with 4503599627370496. lra.
Qed.
Example C109_hypotheses_met :
  double_ceil g_env /\ Forall ffin c_o /\ Forall ffin g_n /\ ffin g_eps /\ Forall ffin g_s /\ step_isF 2 (StArr g_s) g_s /\
  good_axes (fval g_eps) (zipw Rmin (map fval c_o) (map fval g_n)) (zipw Rmax (map fval c_o) (map fval g_n)) (map fval g_s) /\
  (forall j x, sv_minimize g_env j = Ok (x, true) -> length x = 2%nat /\ has_number x) /\
  sv_front g_env (fun x => x) 2 d_b (StArr g_s) g_eps (Some c_o) (Some g_n) None "scipy_de" = Ok (g_front, g_front).
Proof.
  split; [apply f64_ceil_exact; reflexivity|].
  do 4 (split; [repeat constructor|]). split; [split; [reflexivity|left; reflexivity]|]. split; [|split].
  - unfold c_o, g_n, g_s, g_eps. cbn [map zipw]. rewrite fval_0, fval_1.
    assert (E1 : fval 2%float = 2). { rewrite fval_sf. set (t := Prim2SF _). vm_compute in t. subst t. cbn. unfold F2R. cbn. lra. }
    assert (E2 : fval 0.5%float = / 2). { rewrite fval_sf. set (t := Prim2SF _). vm_compute in t. subst t. cbn. unfold F2R. cbn. lra. }
    assert (E3 : fval 0x1p-20%float = / 1048576). { rewrite fval_sf. set (t := Prim2SF _). vm_compute in t. subst t. cbn. unfold F2R. cbn. lra. }
    rewrite E1, E2, E3, !Rmin_left, !Rmax_right by lra. (constructor; [apply g_axis; lra|]); (constructor; [apply g_axis; lra|]); constructor.
  - intros j x H. cbn in H. injection H as <-. split; [reflexivity|]. left. reflexivity.
  - vm_cast_no_check (@eq_refl (res (list (list F64) * list (list F64))) (Ok (g_front, g_front))).
Qed.
