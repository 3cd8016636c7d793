(** * Property theorems on IEEE doubles: rounding.

    The theorems of PropsENautilus.v, PropsNavigator.v and PropsNautilus.v about
    the formulas of the methods are in exact arithmetic.  Here the same calls are
    run with IEEE doubles (round to nearest), and the statements bound the
    rounding.  The vocabulary ([fin_below], [rounded_step], [same_numbers],
    [apart], [close_to], [approximates]) is in SFloat.v. *)
From Coq Require Import ZArith List Bool Lia Reals Lra Floats.
From Flocq Require Import Core.
From Verif Require Import Num NumXR NumF64 Py Np Spec NpFacts XRFacts MENautilus PENautilus PENautilus2 PENautilus3 PENautilus4 F64Sums F64Step SFloat F64Vec PENautilus6.
Import ListNotations.
Local Open Scope R_scope.

(** ** C01: E-NAUTILUS, points shown.  Numbers up to 2^1020, any history. *)
Theorem C01_first_points_doubles :
  forall (F : list (list F64)) nd k ideal vars s qs i0 n0 km d s' q,
  Forall (fun r => length r = k) F -> length nd = k ->
  Forall (fin_below 1020) F -> fin_below 1020 nd ->
  en_reach F ideal nd vars s qs -> In (EInit i0 n0) qs ->
  en_iterate km (EInit i0 n0) (Some d) s = (s', Ok q) ->
  exists mi c n, q = EReq mi c /\ option_map as_int (d_n_iterations d) = Some (Some n) /\ ec_left c = n /\
    ((1 <= n <= 2 ^ 53)%Z -> exists zbars, incl zbars F /\ Forall2 (rounded_step n nd) zbars (ec_points c)) /\
    (n = 1%Z -> Forall (fun y => exists z, In z F /\ same_numbers y z) (ec_points c)).
Proof.
  intros F nd k ideal vars s qs i0 n0 km d s' q HF Hn BF Bn Hr _ H.
  destruct (initial_doubles F nd k HF Hn _ _ _ _ _ _ _ _ _ _ Hr H) as (mi & c & n & -> & En & S).
  exists mi, c, n. split; [auto|]. split; [auto|]. split; [apply S|]. split.
  - intros Hb. apply (shown_rounded F nd k); auto.
  - intros ->. assert (BF' : Forall (Forall ffin) F) by (eapply Forall_impl; [|exact BF]; intros a; apply within_fin).
    eapply Forall_impl; [|apply (shown_last F nd k nd c); auto; eapply within_fin; eauto].
    intros y (z & Hz & E). exists z. split; auto. apply same_of_val; auto. rewrite Forall_forall in BF'. auto.
Qed.
Print Assumptions C01_first_points_doubles.

Theorem C01_next_points_doubles :
  forall (F : list (list F64)) nd k ideal vars s qs mi0 c0 km d i p s' mi c,
  Forall (fun r => length r = k) F -> length nd = k ->
  Forall (fin_below 1020) F -> fin_below 1020 p ->
  en_reach F ideal nd vars s qs -> In (EReq mi0 c0) qs ->
  is_matrix k (ec_lb c0) -> is_matrix k (ec_ub c0) ->
  d_step_back d = Some false -> d_index d = Some i -> (0 <= i)%Z ->
  nth_error (ec_points c0) (Z.to_nat i) = Some p -> length p = k ->
  en_iterate km (EReq mi0 c0) (Some d) s = (s', Ok (EReq mi c)) ->
  exists lb ub zbars, nth_error (ec_lb c0) (Z.to_nat i) = Some lb /\ nth_error (ec_ub c0) (Z.to_nat i) = Some ub /\
    Forall (fun z => In z F /\ in_box z lb ub) zbars /\
    ((1 <= ec_left c <= 2 ^ 53)%Z -> Forall2 (rounded_step (ec_left c) p) zbars (ec_points c)) /\
    (ec_left c = 1%Z -> Forall2 same_numbers (ec_points c) zbars).
Proof.
  intros F nd k ideal vars s qs mi0 c0 km d i p s' mi c HF Hn BF Bp Hr _ Hlb Hub Hsb Hi Hi0 Hp Lp H.
  destruct (forward_doubles_box F nd k HF Hn _ _ _ _ _ _ _ _ _ _ _ _ _ Hr Hlb Hub Hsb Hi Hi0 Hp Lp H) as (lb & ub & zb & El & Eu & HZ & EP & _).
  exists lb, ub, zb. split; [exact El|]. split; [exact Eu|]. split; [exact HZ|].
  assert (G : Forall (fun z => length z = k /\ fin_below 1020 z) zb).
  { apply Forall_forall. intros z Hz. rewrite Forall_forall in HZ, HF, BF. destruct (HZ z Hz) as [Hz' _]. split; auto. }
  rewrite EP. clear -G Lp Bp. split; intros E.
  - induction G as [|z zb [Lz Bz] G IH]; cbn [map]; constructor; auto. apply step_rounded; auto. congruence.
  - rewrite E. induction G as [|z zb [Lz Bz] G IH]; cbn [map]; constructor; auto.
    apply same_of_val; [eapply within_fin; eauto|]. apply step_last_same; [congruence|eapply within_fin; eauto|eapply within_fin; eauto].
Qed.
Print Assumptions C01_next_points_doubles.

(** ** C07: distances.  At most 2^20 objectives, numbers up to 2^499; where the
    differences to the nadir are zero or at least 2^-500 (no underflow in their
    squares) the relative error is at most (2k+10) * 2^-52; and the distance is
    exactly 100 when one iteration is left, unless the solution lies within
    2^-536 of the nadir. *)
Theorem C07_first_distance_doubles :
  forall (F : list (list F64)) nd k ideal vars s qs i0 n0 km d s' mi c,
  Forall (fun r => length r = k) F -> length nd = k -> (Z.of_nat k <= 2 ^ 20)%Z ->
  Forall (fin_below 499) F -> fin_below 499 nd ->
  en_reach F ideal nd vars s qs -> In (EInit i0 n0) qs ->
  en_iterate km (EInit i0 n0) (Some d) s = (s', Ok (EReq mi c)) ->
  (1 <= ec_left c <= 2 ^ 53)%Z ->
  exists zbars, incl zbars F /\ Forall2 (rounded_step (ec_left c) nd) zbars (ec_points c) /\ length (ec_dist c) = length (ec_points c) /\
    forall j z y dist, nth_error zbars j = Some z -> nth_error (ec_points c) j = Some y -> nth_error (ec_dist c) j = Some dist ->
      (apart (-500) y nd -> apart (-500) z nd -> map fval z <> map fval nd ->
        approximates (IZR (2 * Z.of_nat k + 10) * bpow radix2 (-52)) dist
          (100 * rdist (map fval y) (map fval nd) / rdist (map fval z) (map fval nd))) /\
      (ec_left c = 1%Z -> ~ close_to (-536) z nd -> PrimFloat.eqb dist 100 = true).
Proof.
  intros F nd k ideal vars s qs i0 n0 km d s' mi c HF Hn Hk BF Bn Hr _ H Hb.
  destruct (initial_doubles F nd k HF Hn _ _ _ _ _ _ _ _ _ _ Hr H) as (mi' & c' & n & E & En & S). injection E as <- <-.
  assert (El : ec_left c = n) by apply S. rewrite El in *.
  destruct (shown_distances F nd k nd n c) as (zb & A & B & C); auto. exists zb. split; [auto|]. split; [auto|]. split; [|exact C].
  destruct S as (_ & zb' & _ & E1 & E2). rewrite E1, E2, !map_length. auto.
Qed.
Print Assumptions C07_first_distance_doubles.

Theorem C07_next_distance_doubles :
  forall (F : list (list F64)) nd k ideal vars s qs mi0 c0 km d i p s' mi c,
  Forall (fun r => length r = k) F -> length nd = k -> (Z.of_nat k <= 2 ^ 20)%Z ->
  Forall (fin_below 499) F -> fin_below 499 nd -> fin_below 499 p ->
  en_reach F ideal nd vars s qs -> In (EReq mi0 c0) qs ->
  d_step_back d = Some false -> d_index d = Some i -> (0 <= i)%Z ->
  nth_error (ec_points c0) (Z.to_nat i) = Some p -> length p = k ->
  en_iterate km (EReq mi0 c0) (Some d) s = (s', Ok (EReq mi c)) ->
  (1 <= ec_left c <= 2 ^ 53)%Z ->
  exists zbars, incl zbars F /\ Forall2 (rounded_step (ec_left c) p) zbars (ec_points c) /\ length (ec_dist c) = length (ec_points c) /\
    forall j z y dist, nth_error zbars j = Some z -> nth_error (ec_points c) j = Some y -> nth_error (ec_dist c) j = Some dist ->
      (apart (-500) y nd -> apart (-500) z nd -> map fval z <> map fval nd ->
        approximates (IZR (2 * Z.of_nat k + 10) * bpow radix2 (-52)) dist
          (100 * rdist (map fval y) (map fval nd) / rdist (map fval z) (map fval nd))) /\
      (ec_left c = 1%Z -> ~ close_to (-536) z nd -> PrimFloat.eqb dist 100 = true).
Proof.
  intros F nd k ideal vars s qs mi0 c0 km d i p s' mi c HF Hn Hk BF Bn Bp Hr _ Hsb Hi Hi0 Hp Lp H Hb.
  destruct (forward_doubles F nd k HF Hn _ _ _ _ _ _ _ _ _ _ _ _ _ Hr Hsb Hi (py_nth_of_nth _ _ _ Hi0 Hp) Lp H) as (n & _ & S & _).
  assert (El : ec_left c = n) by apply S. rewrite El in *.
  destruct (shown_distances F nd k p n c) as (zb & A & B & C); auto. exists zb. split; [auto|]. split; [auto|]. split; [|exact C].
  destruct S as (_ & zb' & _ & E1 & E2). rewrite E1, E2, !map_length. auto.
Qed.
Print Assumptions C07_next_distance_doubles.

(** ** C06: the final solution.  Its objective vector consists of the numbers of a
    row of the front; its decision vector belongs to a row no component of which
    is farther than 2^-536, hence to a row with the same numbers if no two
    different rows are that close. *)
Theorem C06_final_solution_doubles :
  forall (F : list (list F64)) nd k ideal vars s qs mi0 c0 km d i p s1 mi c km2 d2 s2 obj sol,
  Forall (fun r => length r = k) F -> length nd = k -> (Z.of_nat k <= 2 ^ 20)%Z ->
  Forall (fin_below 500) F -> fin_below 500 p ->
  en_reach F ideal nd vars s qs -> In (EReq mi0 c0) qs ->
  d_step_back d = Some false -> d_index d = Some i -> (0 <= i)%Z ->
  nth_error (ec_points c0) (Z.to_nat i) = Some p -> length p = k ->
  en_iterate km (EReq mi0 c0) (Some d) s = (s1, Ok (EReq mi c)) ->
  ec_left c = 1%Z ->
  d_step_back d2 = Some false ->
  en_iterate km2 (EReq mi c) (Some d2) s1 = (s2, Ok (EStop obj sol)) ->
  (exists i2, d_index d2 = Some i2 /\ py_nth (ec_points c) i2 = Ok obj) /\
  (exists row, In row F /\ same_numbers obj row) /\
  match vars with
  | None => sol = None
  | Some V => exists j row x, nth_error F j = Some row /\ nth_error V j = Some x /\ sol = Some x /\
      close_to (-536) row obj /\
      ((forall r1 r2, In r1 F -> In r2 F -> close_to (-536) r1 r2 -> r1 = r2) -> same_numbers obj row)
  end.
Proof.
  intros F nd k ideal vars s qs mi0 c0 km d i p s1 mi c km2 d2 s2 obj sol HF Hn Hk BF Bp Hr _ Hsb Hi Hi0 Hp Lp H H1 Hsb2 H2.
  destruct (forward_doubles F nd k HF Hn _ _ _ _ _ _ _ _ _ _ _ _ _ Hr Hsb Hi (py_nth_of_nth _ _ _ Hi0 Hp) Lp H) as (n & El1 & S & Ef & Ev).
  assert (El : ec_left c = n) by apply S. rewrite H1 in El. subst n.
  assert (BF' : Forall (Forall ffin) F) by (eapply Forall_impl; [|exact BF]; intros a; apply within_fin).
  assert (Hl := shown_last F nd k p c HF Lp BF' (within_fin _ _ Bp) S). cbn [en_iterate] in H2.
  destruct (en_forward_ok _ _ _ _ _ _ H2 Hsb2) as (i2 & p2 & n2 & Ei2 & Ep2 & El2 & [(_ & Es2 & Hst)|(Hn2 & _)]).
  2:{ rewrite El1 in El2. injection El2 as <-. lia. }
  assert (Eo : obj = p2).
  { unfold en_stop in Hst. destruct (es_vars s2); [|injection Hst as <-; reflexivity].
    apply rbind_ok in Hst. destruct Hst as (a & _ & Hst). apply rbind_ok in Hst. destruct Hst as (b & _ & Hst). apply rbind_ok in Hst. destruct Hst as (e & _ & Hst). injection Hst; auto. }
  subst p2. split; [eauto|].
  rewrite Forall_forall in Hl. destruct (Hl obj (py_nth_In _ _ _ Ep2)) as (row0 & Hr0 & S0).
  rewrite Forall_forall in BF'. assert (Sm : same_numbers obj row0) by (apply same_of_val; auto).
  split; [eauto|].
  assert (Ef2 : es_front s2 = F) by (subst s2; exact Ef). assert (Ev2 : es_vars s2 = vars) by (subst s2; exact Ev).
  destruct vars as [V|].
  2:{ unfold en_stop in Hst. rewrite Ev2 in Hst. injection Hst as <-. reflexivity. }
  destruct (In_nth_error _ _ Hr0) as (j0 & Hj0).
  assert (Lo : length obj = k). { rewrite Forall_forall in HF. rewrite <- (HF row0 Hr0). exact (Forall2_len _ _ _ S0). }
  assert (S1 : Forall2 (fun x y : F64 => fval x = fval y) obj row0) by (clear -S0; induction S0 as [|a b l m [_ E] S0 IH]; constructor; auto).
  assert (Bo : fin_below 500 obj).
  { rewrite Forall_forall in BF. assert (B := BF row0 Hr0). clear -S0 B. unfold fin_below in *. induction S0 as [|a b l m [Fa E] S0 IH]; constructor.
    - split; auto. rewrite E. apply (Forall_inv B).
    - apply IH. apply (Forall_inv_tail B). }
  destruct (stop_doubles F k V s2 obj (EStop obj sol) j0 row0) as (j & row & x & Ej & Ex & Eq & Hc); auto.
  injection Eq as ->. exists j, row, x. repeat (split; [auto; fail|]).
  intros Hsep. replace row with row0; auto. symmetry. apply Hsep; auto.
  - eapply nth_error_In; eauto.
  - clear -Hc S1. unfold close_to in *. revert row0 S1. induction Hc as [|a b l m E Hc IH]; intros row0 S1; inversion S1 as [|? b' ? m' Eb Sb]; subst; constructor; auto.
    rewrite <- Eb. auto.
Qed.
Print Assumptions C06_final_solution_doubles.

(** Concrete data: a front, two iterations, the point towards the second row is
    chosen, then the first point shown is taken. *)
Definition finb (v : list F64) : bool :=
  forallb (fun x => PrimFloat.is_finite x && PrimFloat.leb 0 x && PrimFloat.leb x (f64_ofZ 1024)) v.
Lemma finb_ok e v : (10 <= e)%Z -> finb v = true -> fin_below e v.
Proof.
  intros He H. unfold finb in H. rewrite forallb_forall in H. apply Forall_forall. intros x Hx. apply H in Hx.
  apply andb_true_iff in Hx. destruct Hx as [Hx H3]. apply andb_true_iff in Hx. destruct Hx as [H1 H2].
  destruct (f64_ofZ_exact 1024) as [G E]; [lia|]. split; auto.
  rewrite f64_leb_val in H2; [|exact ffin_0|exact H1]. rewrite f64_leb_val in H3; [|exact H1|exact G].
  assert (T : forall a b, Rle_bool a b = true -> a <= b) by (intros a b Hab; destruct (Rle_bool_spec a b); [auto|discriminate]).
  apply T in H2. apply T in H3. rewrite fval_0 in H2. rewrite E in H3.
  rewrite Rabs_pos_eq by exact H2. eapply Rle_trans; [exact H3|]. change 1024 with (bpow radix2 10). apply bpow_le. exact He.
Qed.
Lemma finbs_ok e F : (10 <= e)%Z -> forallb finb F = true -> Forall (fin_below e) F.
Proof. intros He H. rewrite forallb_forall in H. apply Forall_forall. intros v Hv. apply finb_ok; auto. Qed.

Local Open Scope float_scope.
Definition df : list (list F64) := [[0; 2.1]; [1.1; 1.1]; [2.1; 0.3]].
Definition dnd : list F64 := [2.1; 2.1].
Definition did : list F64 := [0; 0.3].
Definition dV : option (list (list F64)) := Some [[10]; [11]; [12]].
Definition dst := en_init df did dnd dV.
Definition dr1 := en_iterate km_none (en_start dst) (Some (ed0 2 3)) dst.
Definition dp : list F64 := nth 1 (ec_points (get_c dr1)) [].
Definition dr2 := en_iterate km_none (EReq (get_mi dr1) (get_c dr1)) (Some (edi 1 false None)) (fst dr1).
Definition dr3 := en_iterate km_none (EReq (get_mi dr2) (get_c dr2)) (Some (edi 0 false None)) (fst dr2).
Definition get_obj (r : en_state F64 * res (en_request F64)) : list F64 := match snd r with Ok (EStop o _) => o | _ => [] end.
Definition get_sol (r : en_state F64 * res (en_request F64)) : option (list F64) := match snd r with Ok (EStop _ x) => x | _ => None end.
Definition is_stop (r : en_state F64 * res (en_request F64)) : bool := match snd r with Ok (EStop _ _) => true | _ => false end.
Lemma is_stop_eq r : is_stop r = true -> r = (fst r, Ok (EStop (get_obj r) (get_sol r))).
Proof. destruct r as [s [[| |]|]]; intros H; try discriminate. reflexivity. Qed.
Definition veqb (v w : list F64) : bool := Nat.eqb (length v) (length w) && forallb (fun p => PrimFloat.eqb (fst p) (snd p)) (combine v w).
Lemma veqb_ok v w : veqb v w = true <-> same_numbers v w.
Proof.
  unfold veqb, same_numbers. split.
  - intros H. apply andb_true_iff in H. destruct H as [L H]. apply Nat.eqb_eq in L. revert w L H.
    induction v as [|a v IH]; intros [|b w] L H; try discriminate; constructor; cbn [combine forallb fst snd] in H; apply andb_true_iff in H; destruct H as [H1 H2]; auto.
  - intros H. induction H as [|a b v w E H IH]; [reflexivity|]. apply andb_true_iff in IH. destruct IH as [I1 I2].
    apply andb_true_iff. split; [exact I1|]. cbn [combine forallb fst snd]. rewrite E. exact I2.
Qed.

Lemma mat_check k (M : list (list F64)) : forallb (fun r => Nat.eqb (length r) k) M = true -> is_matrix k M.
Proof. intros H. apply Forall_forall. intros r Hr. rewrite forallb_forall in H. apply Nat.eqb_eq, H, Hr. Qed.
Example C01_doubles_hypotheses_met :
  Forall (fun r => length r = 2%nat) df /\ length dnd = 2%nat /\
  Forall (fin_below 499) df /\ fin_below 499 dnd /\ fin_below 499 dp /\ length dp = 2%nat /\
  en_reach df did dnd dV dst [en_start dst] /\
  dr1 = (fst dr1, Ok (EReq (get_mi dr1) (get_c dr1))) /\
  en_reach df did dnd dV (fst dr1) [EReq (get_mi dr1) (get_c dr1); en_start dst] /\
  is_matrix 2 (ec_lb (get_c dr1)) /\ is_matrix 2 (ec_ub (get_c dr1)) /\
  d_step_back (edi 1 false None) = Some false /\ d_index (edi 1 false None) = Some 1%Z /\
  nth_error (ec_points (get_c dr1)) 1 = Some dp /\ ec_left (get_c dr1) = 2%Z /\
  dr2 = (fst dr2, Ok (EReq (get_mi dr2) (get_c dr2))) /\ ec_left (get_c dr2) = 1%Z /\
  dr3 = (fst dr3, Ok (EStop (get_obj dr3) (get_sol dr3))).
Proof.
  assert (E1 : dr1 = (fst dr1, Ok (EReq (get_mi dr1) (get_c dr1)))) by (apply is_req_eq; vm_compute; reflexivity).
  split; [repeat constructor|]. split; [reflexivity|]. split; [apply finbs_ok; [lia|vm_compute; reflexivity]|].
  split; [apply finb_ok; [lia|vm_compute; reflexivity]|]. split; [apply finb_ok; [lia|vm_compute; reflexivity]|].
  split; [vm_compute; reflexivity|]. split; [constructor|]. split; [exact E1|].
  split; [exact (en_reach_step _ _ _ _ _ _ (en_start dst) (Some (ed0 2 3)) km_none (fst dr1) _ (en_reach_init df did dnd dV) (or_introl eq_refl)
     (fun d (H : Some (ed0 2 3) = Some d) => match H in _ = o return match o with Some d' => en_validate (en_start dst) d' = Ok tt | None => True end with eq_refl => eq_refl end) E1)|].
  split; [apply mat_check; vm_compute; reflexivity|]. split; [apply mat_check; vm_compute; reflexivity|].
  split; [reflexivity|]. split; [reflexivity|].
  split; [apply (nth_error_nth' _ []); vm_compute; lia|]. split; [vm_compute; reflexivity|].
  split; [apply is_req_eq; vm_compute; reflexivity|]. split; [vm_compute; reflexivity|]. apply is_stop_eq. vm_compute. reflexivity.
Qed.

(** The hypothesis of C06_final_solution_doubles that different rows are not
    within 2^-536 of each other cannot be dropped: with the front
    (0, 1e-170), (1e-170, 0) every squared difference underflows to zero, and the
    decision vector of the first row is returned with the objective vector of the
    second. *)
Definition uf : list (list F64) := [[0; 1e-170]; [1e-170; 0]].
Definition und : list F64 := [1e-170; 1e-170].
Definition uid : list F64 := [0; 0].
Definition uV : list (list F64) := [[10]; [11]].
Definition ust := en_init uf uid und (Some uV).
Definition ur1 := en_iterate km_none (en_start ust) (Some (ed0 2 2)) ust.
Definition ur2 := en_iterate km_none (EReq (get_mi ur1) (get_c ur1)) (Some (edi 1 false None)) (fst ur1).
Definition ur3 := en_iterate km_none (EReq (get_mi ur2) (get_c ur2)) (Some (edi 0 false None)) (fst ur2).

Theorem C06_underflow_refuted :
  exists (F : list (list F64)) ideal nd V s0 km d0 s1 mi1 c1 d1 s2 mi2 c2 d2 s3 obj x,
    s0 = en_init F ideal nd (Some V) /\ length F = length V /\ mutually_nondominated F /\
    Forall (fun r => vle r nd /\ vle ideal r) F /\
    en_validate_init d0 = Ok tt /\ en_iterate km (en_start s0) (Some d0) s0 = (s1, Ok (EReq mi1 c1)) /\
    en_validate_req mi1 d1 = Ok tt /\ en_iterate km (EReq mi1 c1) (Some d1) s1 = (s2, Ok (EReq mi2 c2)) /\
    ec_left c2 = 1%Z /\
    en_validate_req mi2 d2 = Ok tt /\ en_iterate km (EReq mi2 c2) (Some d2) s2 = (s3, Ok (EStop obj (Some x))) /\
    (forall j row, nth_error F j = Some row -> same_numbers obj row -> forall y, nth_error V j = Some y -> ~ same_numbers x y).
Proof.
  exists uf, uid, und, uV, ust, km_none, (ed0 2 2), (fst ur1), (get_mi ur1), (get_c ur1), (edi 1 false None).
  exists (fst ur2), (get_mi ur2), (get_c ur2), (edi 0 false None), (fst ur3), (get_obj ur3), (match get_sol ur3 with Some x => x | None => [] end).
  split; [reflexivity|]. split; [reflexivity|]. split; [apply (@mndb_ok F64); vm_compute; reflexivity|]. split.
  { repeat (constructor; [split; apply (@vleb_iff F64); vm_compute; reflexivity|]). constructor. }
  split; [reflexivity|]. split; [apply is_req_eq; vm_compute; reflexivity|]. split; [vm_compute; reflexivity|].
  split; [apply is_req_eq; vm_compute; reflexivity|]. split; [vm_compute; reflexivity|]. split; [vm_compute; reflexivity|].
  split.
  { replace (Some (match get_sol ur3 with Some x => x | None => [] end)) with (get_sol ur3).
    - apply is_stop_eq. vm_compute. reflexivity.
    - assert (E : match get_sol ur3 with Some _ => true | None => false end = true) by (vm_compute; reflexivity). destruct (get_sol ur3); [reflexivity|discriminate]. }
  intros j row Hr Hs y Hy Hx. apply veqb_ok in Hs. apply veqb_ok in Hx.
  assert (C : forallb (fun p => negb (veqb (get_obj ur3) (fst p) && veqb (match get_sol ur3 with Some x => x | None => [] end) (snd p))) (combine uf uV) = true) by (vm_compute; reflexivity).
  assert (Hc : nth_error (combine uf uV) j = Some (row, y)).
  { clear -Hr Hy. revert Hr Hy. generalize uf uV. induction j; intros [|a l] [|b m] Hr Hy; try discriminate; cbn in *; auto; congruence. }
  rewrite forallb_forall in C. apply nth_error_In in Hc. apply C in Hc. cbn [fst snd] in Hc. rewrite Hs, Hx in Hc. discriminate.
Qed.
Print Assumptions C06_underflow_refuted.
